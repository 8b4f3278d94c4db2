(** C86: algorithms use the elements only through the operations of their type.  For any relation between two element types
    that the operations respect, runs on related memories have the same outcome and related results: e.g. for the reduction of
    integers modulo 2^w, the embedding of the reals in the complex numbers, or membership in a subset closed under the
    operations. *)
From Coq Require Import List Arith NArith ZArith Bool Lia.
From Verif Require Import Mem Scalar View Spec Idx Blas1 Blas2 Blas3 Norm Par KK KKNorm SpecRel PfRel PfRel2 Inst.
Import ListNotations.
Set Implicit Arguments.

(** * What related runs mean for homomorphisms and for closed subsets *)
Theorem C86_homomorphism : forall (O1 O2 : ops) (h : O1 -> O2) A1 A2 (Q : A1 -> A2 -> Prop) (p1 : prog O1 A1) (p2 : prog O2 A2) m x m',
  related_runs (fun x1 x2 => x2 = h x1) Q p1 p2 -> run p1 m = Ok x m' ->
  exists y m2, run p2 (fun a => option_map h (m a)) = Ok y m2 /\ Q x y /\ forall a, m2 a = option_map h (m' a).
Proof. exact homomorphism. Qed.
Print Assumptions C86_homomorphism.

Theorem C86_closed_subset : forall (O : ops) (P : O -> Prop) A (Q : A -> A -> Prop) (p : prog O A) m x m',
  related_runs (fun x1 x2 => x1 = x2 /\ P x1) Q p p -> (forall a v, m a = Some v -> P v) -> run p m = Ok x m' ->
  Q x x /\ forall a v, m' a = Some v -> P v.
Proof. exact closed_subset. Qed.
Print Assumptions C86_closed_subset.

(** Views of views. *)
Theorem C86_views : forall (O1 O2 : ops) (R : O1 -> O2 -> Prop) (x1 : vec O1) (x2 : vec O2) (A1 : mat O1) (A2 : mat O2) alpha1 alpha2 b c e,
  vec_related R x1 x2 -> mat_related R A1 A2 -> R alpha1 alpha2 ->
  vec_related R (scaled_v alpha1 x1) (scaled_v alpha2 x2) /\ mat_related R (scaled_m alpha1 A1) (scaled_m alpha2 A2) /\
  vec_related R (conjugated_v b c x1) (conjugated_v b c x2) /\ mat_related R (conjugated_m b c A1) (conjugated_m b c A2) /\
  match transposed e A1, transposed e A2 with Some T1, Some T2 => mat_related R T1 T2 | None, None => True | _, _ => False end /\
  match conjugate_transposed e b c A1, conjugate_transposed e b c A2 with
  | Some T1, Some T2 => mat_related R T1 T2 | None, None => True | _, _ => False end.
Proof. exact views_related. Qed.
Print Assumptions C86_views.

(** * Inline algorithms *)
Theorem C86_copy_1 : forall (O1 O2 : ops) (R : O1 -> O2 -> Prop) (x1 : vec O1) (x2 : vec O2) (y1 : vec O1) (y2 : vec O2),
  respects R -> vec_related R x1 x2 -> vec_related R y1 y2 -> 
  related_runs R eq (copy_1 x1 y1) (copy_1 x2 y2).
Proof. exact rel_copy_1. Qed.
Print Assumptions C86_copy_1.

Theorem C86_copy_2 : forall (O1 O2 : ops) (R : O1 -> O2 -> Prop) (x1 : mat O1) (x2 : mat O2) (y1 : mat O1) (y2 : mat O2),
  respects R -> mat_related R x1 x2 -> mat_related R y1 y2 -> 
  related_runs R eq (copy_2 x1 y1) (copy_2 x2 y2).
Proof. exact rel_copy_2. Qed.
Print Assumptions C86_copy_2.

Theorem C86_swap_1 : forall (O1 O2 : ops) (R : O1 -> O2 -> Prop) (x1 : vec O1) (x2 : vec O2) (y1 : vec O1) (y2 : vec O2),
  respects R -> vec_related R x1 x2 -> vec_related R y1 y2 -> 
  related_runs R eq (swap_1 x1 y1) (swap_1 x2 y2).
Proof. exact rel_swap_1. Qed.
Print Assumptions C86_swap_1.

Theorem C86_swap_2 : forall (O1 O2 : ops) (R : O1 -> O2 -> Prop) (x1 : mat O1) (x2 : mat O2) (y1 : mat O1) (y2 : mat O2),
  respects R -> mat_related R x1 x2 -> mat_related R y1 y2 -> 
  related_runs R eq (swap_2 x1 y1) (swap_2 x2 y2).
Proof. exact rel_swap_2. Qed.
Print Assumptions C86_swap_2.

Theorem C86_scale_1 : forall (O1 O2 : ops) (R : O1 -> O2 -> Prop) (alpha1 : car O1) (alpha2 : car O2) (x1 : vec O1) (x2 : vec O2),
  respects R -> R alpha1 alpha2 -> vec_related R x1 x2 -> 
  related_runs R eq (scale_1 alpha1 x1) (scale_1 alpha2 x2).
Proof. exact rel_scale_1. Qed.
Print Assumptions C86_scale_1.

Theorem C86_scale_2 : forall (O1 O2 : ops) (R : O1 -> O2 -> Prop) (alpha1 : car O1) (alpha2 : car O2) (A1 : mat O1) (A2 : mat O2),
  respects R -> R alpha1 alpha2 -> mat_related R A1 A2 -> 
  related_runs R eq (scale_2 alpha1 A1) (scale_2 alpha2 A2).
Proof. exact rel_scale_2. Qed.
Print Assumptions C86_scale_2.

Theorem C86_add_1 : forall (O1 O2 : ops) (R : O1 -> O2 -> Prop) (x1 : vec O1) (x2 : vec O2) (y1 : vec O1) (y2 : vec O2) (z1 : vec O1) (z2 : vec O2),
  respects R -> vec_related R x1 x2 -> vec_related R y1 y2 -> vec_related R z1 z2 -> 
  related_runs R eq (add_1 x1 y1 z1) (add_1 x2 y2 z2).
Proof. exact rel_add_1. Qed.
Print Assumptions C86_add_1.

Theorem C86_add_2 : forall (O1 O2 : ops) (R : O1 -> O2 -> Prop) (x1 : mat O1) (x2 : mat O2) (y1 : mat O1) (y2 : mat O2) (z1 : mat O1) (z2 : mat O2),
  respects R -> mat_related R x1 x2 -> mat_related R y1 y2 -> mat_related R z1 z2 -> 
  related_runs R eq (add_2 x1 y1 z1) (add_2 x2 y2 z2).
Proof. exact rel_add_2. Qed.
Print Assumptions C86_add_2.

Theorem C86_dot : forall (O1 O2 : ops) (R : O1 -> O2 -> Prop) (v11 : vec O1) (v12 : vec O2) (v21 : vec O1) (v22 : vec O2) (init1 : car O1) (init2 : car O2),
  respects R -> vec_related R v11 v12 -> vec_related R v21 v22 -> R init1 init2 -> 
  related_runs R R (dot v11 v21 init1) (dot v12 v22 init2).
Proof. exact rel_dot. Qed.
Print Assumptions C86_dot.

Theorem C86_dotc : forall (O1 O2 : ops) (R : O1 -> O2 -> Prop) (v11 : vec O1) (v12 : vec O2) (v21 : vec O1) (v22 : vec O2) (init1 : car O1) (init2 : car O2) (fix_nc : bool) (noncomplex : bool),
  respects R -> vec_related R v11 v12 -> vec_related R v21 v22 -> R init1 init2 -> 
  related_runs R R (dotc fix_nc noncomplex v11 v21 init1) (dotc fix_nc noncomplex v12 v22 init2).
Proof. exact rel_dotc. Qed.
Print Assumptions C86_dotc.

Theorem C86_dot_noinit : forall (O1 O2 : ops) (R : O1 -> O2 -> Prop) (v11 : vec O1) (v12 : vec O2) (v21 : vec O1) (v22 : vec O2),
  respects R -> vec_related R v11 v12 -> vec_related R v21 v22 -> 
  related_runs R R (dot_noinit v11 v21) (dot_noinit v12 v22).
Proof. exact rel_dot_noinit. Qed.
Print Assumptions C86_dot_noinit.

Theorem C86_dotc_noinit : forall (O1 O2 : ops) (R : O1 -> O2 -> Prop) (v11 : vec O1) (v12 : vec O2) (v21 : vec O1) (v22 : vec O2) (fix_nc : bool) (noncomplex : bool),
  respects R -> vec_related R v11 v12 -> vec_related R v21 v22 -> 
  related_runs R R (dotc_noinit fix_nc noncomplex v11 v21) (dotc_noinit fix_nc noncomplex v12 v22).
Proof. exact rel_dotc_noinit. Qed.
Print Assumptions C86_dotc_noinit.

Theorem C86_apply_givens_rotation : forall (O1 O2 : ops) (R : O1 -> O2 -> Prop) (x1 : vec O1) (x2 : vec O2) (y1 : vec O1) (y2 : vec O2) (c1 : car O1) (c2 : car O2) (s1 : car O1) (s2 : car O2),
  respects R -> vec_related R x1 x2 -> vec_related R y1 y2 -> R c1 c2 -> R s1 s2 -> 
  related_runs R eq (apply_givens_rotation x1 y1 c1 s1) (apply_givens_rotation x2 y2 c2 s2).
Proof. exact rel_apply_givens_rotation. Qed.
Print Assumptions C86_apply_givens_rotation.

Theorem C86_apply_givens_rotation_c : forall (O1 O2 : ops) (R : O1 -> O2 -> Prop) (x1 : vec O1) (x2 : vec O2) (y1 : vec O1) (y2 : vec O2) (c1 : car O1) (c2 : car O2) (s1 : car O1) (s2 : car O2),
  respects R -> vec_related R x1 x2 -> vec_related R y1 y2 -> R c1 c2 -> R s1 s2 -> 
  related_runs R eq (apply_givens_rotation_c x1 y1 c1 s1) (apply_givens_rotation_c x2 y2 c2 s2).
Proof. exact rel_apply_givens_rotation_c. Qed.
Print Assumptions C86_apply_givens_rotation_c.

Theorem C86_matrix_vector_product : forall (O1 O2 : ops) (R : O1 -> O2 -> Prop) (A1 : mat O1) (A2 : mat O2) (x1 : vec O1) (x2 : vec O2) (y1 : vec O1) (y2 : vec O2),
  respects R -> mat_related R A1 A2 -> vec_related R x1 x2 -> vec_related R y1 y2 -> 
  related_runs R eq (matrix_vector_product A1 x1 y1) (matrix_vector_product A2 x2 y2).
Proof. exact rel_matrix_vector_product. Qed.
Print Assumptions C86_matrix_vector_product.

Theorem C86_matrix_vector_product_upd : forall (O1 O2 : ops) (R : O1 -> O2 -> Prop) (A1 : mat O1) (A2 : mat O2) (x1 : vec O1) (x2 : vec O2) (y1 : vec O1) (y2 : vec O2) (z1 : vec O1) (z2 : vec O2),
  respects R -> mat_related R A1 A2 -> vec_related R x1 x2 -> vec_related R y1 y2 -> vec_related R z1 z2 -> 
  related_runs R eq (matrix_vector_product_upd A1 x1 y1 z1) (matrix_vector_product_upd A2 x2 y2 z2).
Proof. exact rel_matrix_vector_product_upd. Qed.
Print Assumptions C86_matrix_vector_product_upd.

Theorem C86_symmetric_matrix_vector_product : forall (O1 O2 : ops) (R : O1 -> O2 -> Prop) (A1 : mat O1) (A2 : mat O2) (x1 : vec O1) (x2 : vec O2) (y1 : vec O1) (y2 : vec O2) (t : triangle),
  respects R -> mat_related R A1 A2 -> vec_related R x1 x2 -> vec_related R y1 y2 -> 
  related_runs R eq (symmetric_matrix_vector_product A1 t x1 y1) (symmetric_matrix_vector_product A2 t x2 y2).
Proof. exact rel_symmetric_matrix_vector_product. Qed.
Print Assumptions C86_symmetric_matrix_vector_product.

Theorem C86_symmetric_matrix_vector_product_upd : forall (O1 O2 : ops) (R : O1 -> O2 -> Prop) (A1 : mat O1) (A2 : mat O2) (x1 : vec O1) (x2 : vec O2) (y1 : vec O1) (y2 : vec O2) (z1 : vec O1) (z2 : vec O2) (t : triangle),
  respects R -> mat_related R A1 A2 -> vec_related R x1 x2 -> vec_related R y1 y2 -> vec_related R z1 z2 -> 
  related_runs R eq (symmetric_matrix_vector_product_upd A1 t x1 y1 z1) (symmetric_matrix_vector_product_upd A2 t x2 y2 z2).
Proof. exact rel_symmetric_matrix_vector_product_upd. Qed.
Print Assumptions C86_symmetric_matrix_vector_product_upd.

Theorem C86_hermitian_matrix_vector_product : forall (O1 O2 : ops) (R : O1 -> O2 -> Prop) (A1 : mat O1) (A2 : mat O2) (x1 : vec O1) (x2 : vec O2) (y1 : vec O1) (y2 : vec O2) (t : triangle),
  respects R -> mat_related R A1 A2 -> vec_related R x1 x2 -> vec_related R y1 y2 -> 
  related_runs R eq (hermitian_matrix_vector_product A1 t x1 y1) (hermitian_matrix_vector_product A2 t x2 y2).
Proof. exact rel_hermitian_matrix_vector_product. Qed.
Print Assumptions C86_hermitian_matrix_vector_product.

Theorem C86_hermitian_matrix_vector_product_upd : forall (O1 O2 : ops) (R : O1 -> O2 -> Prop) (A1 : mat O1) (A2 : mat O2) (x1 : vec O1) (x2 : vec O2) (y1 : vec O1) (y2 : vec O2) (z1 : vec O1) (z2 : vec O2) (t : triangle),
  respects R -> mat_related R A1 A2 -> vec_related R x1 x2 -> vec_related R y1 y2 -> vec_related R z1 z2 -> 
  related_runs R eq (hermitian_matrix_vector_product_upd A1 t x1 y1 z1) (hermitian_matrix_vector_product_upd A2 t x2 y2 z2).
Proof. exact rel_hermitian_matrix_vector_product_upd. Qed.
Print Assumptions C86_hermitian_matrix_vector_product_upd.

Theorem C86_triangular_matrix_vector_product : forall (O1 O2 : ops) (R : O1 -> O2 -> Prop) (A1 : mat O1) (A2 : mat O2) (x1 : vec O1) (x2 : vec O2) (y1 : vec O1) (y2 : vec O2) (t : triangle) (d : diagonal),
  respects R -> mat_related R A1 A2 -> vec_related R x1 x2 -> vec_related R y1 y2 -> 
  related_runs R eq (triangular_matrix_vector_product A1 t d x1 y1) (triangular_matrix_vector_product A2 t d x2 y2).
Proof. exact rel_triangular_matrix_vector_product. Qed.
Print Assumptions C86_triangular_matrix_vector_product.

Theorem C86_triangular_matrix_vector_product_upd : forall (O1 O2 : ops) (R : O1 -> O2 -> Prop) (A1 : mat O1) (A2 : mat O2) (x1 : vec O1) (x2 : vec O2) (y1 : vec O1) (y2 : vec O2) (z1 : vec O1) (z2 : vec O2) (t : triangle) (d : diagonal),
  respects R -> mat_related R A1 A2 -> vec_related R x1 x2 -> vec_related R y1 y2 -> vec_related R z1 z2 -> 
  related_runs R eq (triangular_matrix_vector_product_upd A1 t d x1 y1 z1) (triangular_matrix_vector_product_upd A2 t d x2 y2 z2).
Proof. exact rel_triangular_matrix_vector_product_upd. Qed.
Print Assumptions C86_triangular_matrix_vector_product_upd.

Theorem C86_triangular_matrix_vector_product_inplace : forall (O1 O2 : ops) (R : O1 -> O2 -> Prop) (A1 : mat O1) (A2 : mat O2) (y1 : vec O1) (y2 : vec O2) (t : triangle) (d : diagonal),
  respects R -> mat_related R A1 A2 -> vec_related R y1 y2 -> 
  related_runs R eq (triangular_matrix_vector_product_inplace A1 t d y1) (triangular_matrix_vector_product_inplace A2 t d y2).
Proof. exact rel_triangular_matrix_vector_product_inplace. Qed.
Print Assumptions C86_triangular_matrix_vector_product_inplace.

Theorem C86_triangular_matrix_vector_solve_with : forall (O1 O2 : ops) (R : O1 -> O2 -> Prop) (divide1 : O1 -> O1 -> O1) (divide2 : O2 -> O2 -> O2) (A1 : mat O1) (A2 : mat O2) (b1 : vec O1) (b2 : vec O2) (x1 : vec O1) (x2 : vec O2) (ty : ity) (t : triangle) (d : diagonal),
  respects R -> respects_op R divide1 divide2 -> mat_related R A1 A2 -> vec_related R b1 b2 -> vec_related R x1 x2 -> 
  related_runs R eq (triangular_matrix_vector_solve_with ty divide1 A1 t d b1 x1) (triangular_matrix_vector_solve_with ty divide2 A2 t d b2 x2).
Proof. exact rel_triangular_matrix_vector_solve_with. Qed.
Print Assumptions C86_triangular_matrix_vector_solve_with.

Theorem C86_triangular_matrix_vector_solve : forall (O1 O2 : ops) (R : O1 -> O2 -> Prop) (A1 : mat O1) (A2 : mat O2) (b1 : vec O1) (b2 : vec O2) (x1 : vec O1) (x2 : vec O2) (ty : ity) (t : triangle) (d : diagonal),
  respects R -> respects_op R (@div O1) (@div O2) -> mat_related R A1 A2 -> vec_related R b1 b2 -> vec_related R x1 x2 -> 
  related_runs R eq (triangular_matrix_vector_solve ty A1 t d b1 x1) (triangular_matrix_vector_solve ty A2 t d b2 x2).
Proof. exact rel_triangular_matrix_vector_solve. Qed.
Print Assumptions C86_triangular_matrix_vector_solve.

Theorem C86_matrix_rank_1_update : forall (O1 O2 : ops) (R : O1 -> O2 -> Prop) (x1 : vec O1) (x2 : vec O2) (y1 : vec O1) (y2 : vec O2) (A1 : mat O1) (A2 : mat O2),
  respects R -> vec_related R x1 x2 -> vec_related R y1 y2 -> mat_related R A1 A2 -> 
  related_runs R eq (matrix_rank_1_update x1 y1 A1) (matrix_rank_1_update x2 y2 A2).
Proof. exact rel_matrix_rank_1_update. Qed.
Print Assumptions C86_matrix_rank_1_update.

Theorem C86_matrix_rank_1_update_c : forall (O1 O2 : ops) (R : O1 -> O2 -> Prop) (x1 : vec O1) (x2 : vec O2) (y1 : vec O1) (y2 : vec O2) (A1 : mat O1) (A2 : mat O2) (fix_nc : bool) (noncomplex : bool),
  respects R -> vec_related R x1 x2 -> vec_related R y1 y2 -> mat_related R A1 A2 -> 
  related_runs R eq (matrix_rank_1_update_c fix_nc noncomplex x1 y1 A1) (matrix_rank_1_update_c fix_nc noncomplex x2 y2 A2).
Proof. exact rel_matrix_rank_1_update_c. Qed.
Print Assumptions C86_matrix_rank_1_update_c.

Theorem C86_symmetric_matrix_rank_1_update_alpha : forall (O1 O2 : ops) (R : O1 -> O2 -> Prop) (alpha1 : car O1) (alpha2 : car O2) (x1 : vec O1) (x2 : vec O2) (A1 : mat O1) (A2 : mat O2) (t : triangle),
  respects R -> R alpha1 alpha2 -> vec_related R x1 x2 -> mat_related R A1 A2 -> 
  related_runs R eq (symmetric_matrix_rank_1_update_alpha alpha1 x1 A1 t) (symmetric_matrix_rank_1_update_alpha alpha2 x2 A2 t).
Proof. exact rel_symmetric_matrix_rank_1_update_alpha. Qed.
Print Assumptions C86_symmetric_matrix_rank_1_update_alpha.

Theorem C86_symmetric_matrix_rank_1_update : forall (O1 O2 : ops) (R : O1 -> O2 -> Prop) (x1 : vec O1) (x2 : vec O2) (A1 : mat O1) (A2 : mat O2) (t : triangle),
  respects R -> vec_related R x1 x2 -> mat_related R A1 A2 -> 
  related_runs R eq (symmetric_matrix_rank_1_update x1 A1 t) (symmetric_matrix_rank_1_update x2 A2 t).
Proof. exact rel_symmetric_matrix_rank_1_update. Qed.
Print Assumptions C86_symmetric_matrix_rank_1_update.

Theorem C86_hermitian_matrix_rank_1_update_alpha : forall (O1 O2 : ops) (R : O1 -> O2 -> Prop) (alpha1 : car O1) (alpha2 : car O2) (x1 : vec O1) (x2 : vec O2) (A1 : mat O1) (A2 : mat O2) (t : triangle),
  respects R -> R alpha1 alpha2 -> vec_related R x1 x2 -> mat_related R A1 A2 -> 
  related_runs R eq (hermitian_matrix_rank_1_update_alpha alpha1 x1 A1 t) (hermitian_matrix_rank_1_update_alpha alpha2 x2 A2 t).
Proof. exact rel_hermitian_matrix_rank_1_update_alpha. Qed.
Print Assumptions C86_hermitian_matrix_rank_1_update_alpha.

Theorem C86_hermitian_matrix_rank_1_update : forall (O1 O2 : ops) (R : O1 -> O2 -> Prop) (x1 : vec O1) (x2 : vec O2) (A1 : mat O1) (A2 : mat O2) (t : triangle),
  respects R -> vec_related R x1 x2 -> mat_related R A1 A2 -> 
  related_runs R eq (hermitian_matrix_rank_1_update x1 A1 t) (hermitian_matrix_rank_1_update x2 A2 t).
Proof. exact rel_hermitian_matrix_rank_1_update. Qed.
Print Assumptions C86_hermitian_matrix_rank_1_update.

Theorem C86_symmetric_matrix_rank_2_update : forall (O1 O2 : ops) (R : O1 -> O2 -> Prop) (x1 : vec O1) (x2 : vec O2) (y1 : vec O1) (y2 : vec O2) (A1 : mat O1) (A2 : mat O2) (t : triangle),
  respects R -> vec_related R x1 x2 -> vec_related R y1 y2 -> mat_related R A1 A2 -> 
  related_runs R eq (symmetric_matrix_rank_2_update x1 y1 A1 t) (symmetric_matrix_rank_2_update x2 y2 A2 t).
Proof. exact rel_symmetric_matrix_rank_2_update. Qed.
Print Assumptions C86_symmetric_matrix_rank_2_update.

Theorem C86_hermitian_matrix_rank_2_update : forall (O1 O2 : ops) (R : O1 -> O2 -> Prop) (x1 : vec O1) (x2 : vec O2) (y1 : vec O1) (y2 : vec O2) (A1 : mat O1) (A2 : mat O2) (t : triangle),
  respects R -> vec_related R x1 x2 -> vec_related R y1 y2 -> mat_related R A1 A2 -> 
  related_runs R eq (hermitian_matrix_rank_2_update x1 y1 A1 t) (hermitian_matrix_rank_2_update x2 y2 A2 t).
Proof. exact rel_hermitian_matrix_rank_2_update. Qed.
Print Assumptions C86_hermitian_matrix_rank_2_update.

Theorem C86_matrix_product : forall (O1 O2 : ops) (R : O1 -> O2 -> Prop) (A1 : mat O1) (A2 : mat O2) (B1 : mat O1) (B2 : mat O2) (C1 : mat O1) (C2 : mat O2),
  respects R -> mat_related R A1 A2 -> mat_related R B1 B2 -> mat_related R C1 C2 -> 
  related_runs R eq (matrix_product A1 B1 C1) (matrix_product A2 B2 C2).
Proof. exact rel_matrix_product. Qed.
Print Assumptions C86_matrix_product.

Theorem C86_matrix_product_upd : forall (O1 O2 : ops) (R : O1 -> O2 -> Prop) (A1 : mat O1) (A2 : mat O2) (B1 : mat O1) (B2 : mat O2) (E1 : mat O1) (E2 : mat O2) (C1 : mat O1) (C2 : mat O2),
  respects R -> mat_related R A1 A2 -> mat_related R B1 B2 -> mat_related R E1 E2 -> mat_related R C1 C2 -> 
  related_runs R eq (matrix_product_upd A1 B1 E1 C1) (matrix_product_upd A2 B2 E2 C2).
Proof. exact rel_matrix_product_upd. Qed.
Print Assumptions C86_matrix_product_upd.

Theorem C86_triangular_matrix_product_left : forall (O1 O2 : ops) (R : O1 -> O2 -> Prop) (A1 : mat O1) (A2 : mat O2) (B1 : mat O1) (B2 : mat O2) (C1 : mat O1) (C2 : mat O2) (ty : ity) (t : triangle) (d : diagonal),
  respects R -> mat_related R A1 A2 -> mat_related R B1 B2 -> mat_related R C1 C2 -> 
  related_runs R eq (triangular_matrix_product_left ty A1 t d B1 C1) (triangular_matrix_product_left ty A2 t d B2 C2).
Proof. exact rel_triangular_matrix_product_left. Qed.
Print Assumptions C86_triangular_matrix_product_left.

Theorem C86_triangular_matrix_product_right : forall (O1 O2 : ops) (R : O1 -> O2 -> Prop) (B1 : mat O1) (B2 : mat O2) (A1 : mat O1) (A2 : mat O2) (C1 : mat O1) (C2 : mat O2) (ty : ity) (t : triangle) (d : diagonal),
  respects R -> mat_related R B1 B2 -> mat_related R A1 A2 -> mat_related R C1 C2 -> 
  related_runs R eq (triangular_matrix_product_right ty B1 A1 t d C1) (triangular_matrix_product_right ty B2 A2 t d C2).
Proof. exact rel_triangular_matrix_product_right. Qed.
Print Assumptions C86_triangular_matrix_product_right.

Theorem C86_triangular_matrix_left_product : forall (O1 O2 : ops) (R : O1 -> O2 -> Prop) (A1 : mat O1) (A2 : mat O2) (C1 : mat O1) (C2 : mat O2) (t : triangle) (d : diagonal),
  respects R -> mat_related R A1 A2 -> mat_related R C1 C2 -> 
  related_runs R eq (triangular_matrix_left_product A1 t d C1) (triangular_matrix_left_product A2 t d C2).
Proof. exact rel_triangular_matrix_left_product. Qed.
Print Assumptions C86_triangular_matrix_left_product.

Theorem C86_triangular_matrix_right_product : forall (O1 O2 : ops) (R : O1 -> O2 -> Prop) (A1 : mat O1) (A2 : mat O2) (C1 : mat O1) (C2 : mat O2) (t : triangle) (d : diagonal),
  respects R -> mat_related R A1 A2 -> mat_related R C1 C2 -> 
  related_runs R eq (triangular_matrix_right_product A1 t d C1) (triangular_matrix_right_product A2 t d C2).
Proof. exact rel_triangular_matrix_right_product. Qed.
Print Assumptions C86_triangular_matrix_right_product.

Theorem C86_symmetric_matrix_product_left : forall (O1 O2 : ops) (R : O1 -> O2 -> Prop) (A1 : mat O1) (A2 : mat O2) (B1 : mat O1) (B2 : mat O2) (C1 : mat O1) (C2 : mat O2) (t : triangle),
  respects R -> mat_related R A1 A2 -> mat_related R B1 B2 -> mat_related R C1 C2 -> 
  related_runs R eq (symmetric_matrix_product_left A1 t B1 C1) (symmetric_matrix_product_left A2 t B2 C2).
Proof. exact rel_symmetric_matrix_product_left. Qed.
Print Assumptions C86_symmetric_matrix_product_left.

Theorem C86_symmetric_matrix_product_right : forall (O1 O2 : ops) (R : O1 -> O2 -> Prop) (B1 : mat O1) (B2 : mat O2) (A1 : mat O1) (A2 : mat O2) (C1 : mat O1) (C2 : mat O2) (t : triangle),
  respects R -> mat_related R B1 B2 -> mat_related R A1 A2 -> mat_related R C1 C2 -> 
  related_runs R eq (symmetric_matrix_product_right B1 A1 t C1) (symmetric_matrix_product_right B2 A2 t C2).
Proof. exact rel_symmetric_matrix_product_right. Qed.
Print Assumptions C86_symmetric_matrix_product_right.

Theorem C86_hermitian_matrix_product_left : forall (O1 O2 : ops) (R : O1 -> O2 -> Prop) (A1 : mat O1) (A2 : mat O2) (B1 : mat O1) (B2 : mat O2) (C1 : mat O1) (C2 : mat O2) (t : triangle),
  respects R -> mat_related R A1 A2 -> mat_related R B1 B2 -> mat_related R C1 C2 -> 
  related_runs R eq (hermitian_matrix_product_left A1 t B1 C1) (hermitian_matrix_product_left A2 t B2 C2).
Proof. exact rel_hermitian_matrix_product_left. Qed.
Print Assumptions C86_hermitian_matrix_product_left.

Theorem C86_hermitian_matrix_product_right : forall (O1 O2 : ops) (R : O1 -> O2 -> Prop) (B1 : mat O1) (B2 : mat O2) (A1 : mat O1) (A2 : mat O2) (C1 : mat O1) (C2 : mat O2) (t : triangle),
  respects R -> mat_related R B1 B2 -> mat_related R A1 A2 -> mat_related R C1 C2 -> 
  related_runs R eq (hermitian_matrix_product_right B1 A1 t C1) (hermitian_matrix_product_right B2 A2 t C2).
Proof. exact rel_hermitian_matrix_product_right. Qed.
Print Assumptions C86_hermitian_matrix_product_right.

Theorem C86_symmetric_matrix_rank_k_update_alpha : forall (O1 O2 : ops) (R : O1 -> O2 -> Prop) (alpha1 : car O1) (alpha2 : car O2) (A1 : mat O1) (A2 : mat O2) (C1 : mat O1) (C2 : mat O2) (t : triangle),
  respects R -> R alpha1 alpha2 -> mat_related R A1 A2 -> mat_related R C1 C2 -> 
  related_runs R eq (symmetric_matrix_rank_k_update_alpha alpha1 A1 C1 t) (symmetric_matrix_rank_k_update_alpha alpha2 A2 C2 t).
Proof. exact rel_symmetric_matrix_rank_k_update_alpha. Qed.
Print Assumptions C86_symmetric_matrix_rank_k_update_alpha.

Theorem C86_symmetric_matrix_rank_k_update : forall (O1 O2 : ops) (R : O1 -> O2 -> Prop) (A1 : mat O1) (A2 : mat O2) (C1 : mat O1) (C2 : mat O2) (t : triangle),
  respects R -> mat_related R A1 A2 -> mat_related R C1 C2 -> 
  related_runs R eq (symmetric_matrix_rank_k_update A1 C1 t) (symmetric_matrix_rank_k_update A2 C2 t).
Proof. exact rel_symmetric_matrix_rank_k_update. Qed.
Print Assumptions C86_symmetric_matrix_rank_k_update.

Theorem C86_hermitian_matrix_rank_k_update_alpha : forall (O1 O2 : ops) (R : O1 -> O2 -> Prop) (alpha1 : car O1) (alpha2 : car O2) (A1 : mat O1) (A2 : mat O2) (C1 : mat O1) (C2 : mat O2) (t : triangle),
  respects R -> R alpha1 alpha2 -> mat_related R A1 A2 -> mat_related R C1 C2 -> 
  related_runs R eq (hermitian_matrix_rank_k_update_alpha alpha1 A1 C1 t) (hermitian_matrix_rank_k_update_alpha alpha2 A2 C2 t).
Proof. exact rel_hermitian_matrix_rank_k_update_alpha. Qed.
Print Assumptions C86_hermitian_matrix_rank_k_update_alpha.

Theorem C86_hermitian_matrix_rank_k_update : forall (O1 O2 : ops) (R : O1 -> O2 -> Prop) (A1 : mat O1) (A2 : mat O2) (C1 : mat O1) (C2 : mat O2) (t : triangle),
  respects R -> mat_related R A1 A2 -> mat_related R C1 C2 -> 
  related_runs R eq (hermitian_matrix_rank_k_update A1 C1 t) (hermitian_matrix_rank_k_update A2 C2 t).
Proof. exact rel_hermitian_matrix_rank_k_update. Qed.
Print Assumptions C86_hermitian_matrix_rank_k_update.

Theorem C86_symmetric_matrix_rank_2k_update : forall (O1 O2 : ops) (R : O1 -> O2 -> Prop) (A1 : mat O1) (A2 : mat O2) (B1 : mat O1) (B2 : mat O2) (C1 : mat O1) (C2 : mat O2) (t : triangle),
  respects R -> mat_related R A1 A2 -> mat_related R B1 B2 -> mat_related R C1 C2 -> 
  related_runs R eq (symmetric_matrix_rank_2k_update A1 B1 C1 t) (symmetric_matrix_rank_2k_update A2 B2 C2 t).
Proof. exact rel_symmetric_matrix_rank_2k_update. Qed.
Print Assumptions C86_symmetric_matrix_rank_2k_update.

Theorem C86_hermitian_matrix_rank_2k_update : forall (O1 O2 : ops) (R : O1 -> O2 -> Prop) (A1 : mat O1) (A2 : mat O2) (B1 : mat O1) (B2 : mat O2) (C1 : mat O1) (C2 : mat O2) (t : triangle),
  respects R -> mat_related R A1 A2 -> mat_related R B1 B2 -> mat_related R C1 C2 -> 
  related_runs R eq (hermitian_matrix_rank_2k_update A1 B1 C1 t) (hermitian_matrix_rank_2k_update A2 B2 C2 t).
Proof. exact rel_hermitian_matrix_rank_2k_update. Qed.
Print Assumptions C86_hermitian_matrix_rank_2k_update.

Theorem C86_triangular_matrix_matrix_left_solve : forall (O1 O2 : ops) (R : O1 -> O2 -> Prop) (A1 : mat O1) (A2 : mat O2) (B1 : mat O1) (B2 : mat O2) (X1 : mat O1) (X2 : mat O2) (ty : ity) (t : triangle) (d : diagonal),
  respects R -> respects_op R (@div O1) (@div O2) -> mat_related R A1 A2 -> mat_related R B1 B2 -> mat_related R X1 X2 -> 
  related_runs R eq (triangular_matrix_matrix_left_solve ty A1 t d B1 X1) (triangular_matrix_matrix_left_solve ty A2 t d B2 X2).
Proof. exact rel_triangular_matrix_matrix_left_solve. Qed.
Print Assumptions C86_triangular_matrix_matrix_left_solve.

Theorem C86_triangular_matrix_matrix_right_solve : forall (O1 O2 : ops) (R : O1 -> O2 -> Prop) (A1 : mat O1) (A2 : mat O2) (B1 : mat O1) (B2 : mat O2) (X1 : mat O1) (X2 : mat O2) (ty : ity) (t : triangle) (d : diagonal),
  respects R -> respects_op R (@div O1) (@div O2) -> mat_related R A1 A2 -> mat_related R B1 B2 -> mat_related R X1 X2 -> 
  related_runs R eq (triangular_matrix_matrix_right_solve ty A1 t d B1 X1) (triangular_matrix_matrix_right_solve ty A2 t d B2 X2).
Proof. exact rel_triangular_matrix_matrix_right_solve. Qed.
Print Assumptions C86_triangular_matrix_matrix_right_solve.

Theorem C86_triangular_matrix_matrix_solve : forall (O1 O2 : ops) (R : O1 -> O2 -> Prop) (A1 : mat O1) (A2 : mat O2) (B1 : mat O1) (B2 : mat O2) (X1 : mat O1) (X2 : mat O2) (ty : ity) (t : triangle) (d : diagonal) (s : side),
  respects R -> respects_op R (@div O1) (@div O2) -> mat_related R A1 A2 -> mat_related R B1 B2 -> mat_related R X1 X2 -> 
  related_runs R eq (triangular_matrix_matrix_solve ty A1 t d s B1 X1) (triangular_matrix_matrix_solve ty A2 t d s B2 X2).
Proof. exact rel_triangular_matrix_matrix_solve. Qed.
Print Assumptions C86_triangular_matrix_matrix_solve.

Theorem C86_vector_idx_abs_max : forall (O1 O2 : ops) (R : O1 -> O2 -> Prop) M1 M2 (S : M1 -> M2 -> Prop) (mag1 : O1 -> M1) (mag2 : O2 -> M2)
    (ltb1 : M1 -> M1 -> bool) (ltb2 : M2 -> M2 -> bool) (size_max : N) (v1 : vec O1) (v2 : vec O2),
  respects R -> (forall x1 x2, R x1 x2 -> S (mag1 x1) (mag2 x2)) ->
  (forall x1 x2 y1 y2, S x1 x2 -> S y1 y2 -> ltb1 x1 y1 = ltb2 x2 y2) -> vec_related R v1 v2 ->
  related_runs R eq (vector_idx_abs_max mag1 ltb1 size_max v1) (vector_idx_abs_max mag2 ltb2 size_max v2).
Proof. exact rel_vector_idx_abs_max. Qed.
Print Assumptions C86_vector_idx_abs_max.

(** Sums of magnitudes and norms: the magnitudes have to be compared alike as well. *)
Theorem C86_vector_abs_sum : forall (O1 O2 : ops) (R : O1 -> O2 -> Prop) (F1 F2 : rops) (S : F1 -> F2 -> Prop) (M1 : mags O1 F1) (M2 : mags O2 F2) (v1 : vec O1) (v2 : vec O2) (init1 : rcar F1) (init2 : rcar F2),
  respects R -> respects_mag S -> mags_related R S M1 M2 -> vec_related R v1 v2 -> S init1 init2 -> 
  related_runs R S (vector_abs_sum M1 v1 init1) (vector_abs_sum M2 v2 init2).
Proof. exact rel_vector_abs_sum. Qed.
Print Assumptions C86_vector_abs_sum.

Theorem C86_vector_abs_sum_noinit : forall (O1 O2 : ops) (R : O1 -> O2 -> Prop) (F1 F2 : rops) (S : F1 -> F2 -> Prop) (M1 : mags O1 F1) (M2 : mags O2 F2) (v1 : vec O1) (v2 : vec O2),
  respects R -> respects_mag S -> mags_related R S M1 M2 -> vec_related R v1 v2 -> 
  related_runs R S (vector_abs_sum_noinit M1 v1) (vector_abs_sum_noinit M2 v2).
Proof. exact rel_vector_abs_sum_noinit. Qed.
Print Assumptions C86_vector_abs_sum_noinit.

Theorem C86_vector_sum_of_squares : forall (O1 O2 : ops) (R : O1 -> O2 -> Prop) (F1 F2 : rops) (S : F1 -> F2 -> Prop) (M1 : mags O1 F1) (M2 : mags O2 F2) (x1 : vec O1) (x2 : vec O2) (init1 : @sum_of_squares_result F1) (init2 : @sum_of_squares_result F2),
  respects R -> respects_mag S -> mags_related R S M1 M2 -> vec_related R x1 x2 -> ssq_related S init1 init2 -> 
  related_runs R (ssq_related S) (vector_sum_of_squares M1 x1 init1) (vector_sum_of_squares M2 x2 init2).
Proof. exact rel_vector_sum_of_squares. Qed.
Print Assumptions C86_vector_sum_of_squares.

Theorem C86_vector_two_norm : forall (O1 O2 : ops) (R : O1 -> O2 -> Prop) (F1 F2 : rops) (S : F1 -> F2 -> Prop) (M1 : mags O1 F1) (M2 : mags O2 F2) (x1 : vec O1) (x2 : vec O2) (init1 : rcar F1) (init2 : rcar F2),
  respects R -> respects_mag S -> mags_related R S M1 M2 -> vec_related R x1 x2 -> S init1 init2 -> 
  related_runs R S (vector_two_norm M1 x1 init1) (vector_two_norm M2 x2 init2).
Proof. exact rel_vector_two_norm. Qed.
Print Assumptions C86_vector_two_norm.

Theorem C86_vector_two_norm_noinit : forall (O1 O2 : ops) (R : O1 -> O2 -> Prop) (F1 F2 : rops) (S : F1 -> F2 -> Prop) (M1 : mags O1 F1) (M2 : mags O2 F2) (x1 : vec O1) (x2 : vec O2),
  respects R -> respects_mag S -> mags_related R S M1 M2 -> vec_related R x1 x2 -> 
  related_runs R S (vector_two_norm_noinit M1 x1) (vector_two_norm_noinit M2 x2).
Proof. exact rel_vector_two_norm_noinit. Qed.
Print Assumptions C86_vector_two_norm_noinit.

Theorem C86_matrix_frob_norm : forall (O1 O2 : ops) (R : O1 -> O2 -> Prop) (F1 F2 : rops) (S : F1 -> F2 -> Prop) (M1 : mags O1 F1) (M2 : mags O2 F2) (A1 : mat O1) (A2 : mat O2) (init1 : rcar F1) (init2 : rcar F2),
  respects R -> respects_mag S -> mags_related R S M1 M2 -> mat_related R A1 A2 -> S init1 init2 -> 
  related_runs R S (matrix_frob_norm M1 A1 init1) (matrix_frob_norm M2 A2 init2).
Proof. exact rel_matrix_frob_norm. Qed.
Print Assumptions C86_matrix_frob_norm.

Theorem C86_matrix_frob_norm_noinit : forall (O1 O2 : ops) (R : O1 -> O2 -> Prop) (F1 F2 : rops) (S : F1 -> F2 -> Prop) (M1 : mags O1 F1) (M2 : mags O2 F2) (A1 : mat O1) (A2 : mat O2),
  respects R -> respects_mag S -> mags_related R S M1 M2 -> mat_related R A1 A2 -> 
  related_runs R S (matrix_frob_norm_noinit M1 A1) (matrix_frob_norm_noinit M2 A2).
Proof. exact rel_matrix_frob_norm_noinit. Qed.
Print Assumptions C86_matrix_frob_norm_noinit.

Theorem C86_matrix_inf_norm : forall (O1 O2 : ops) (R : O1 -> O2 -> Prop) (F1 F2 : rops) (S : F1 -> F2 -> Prop) (M1 : mags O1 F1) (M2 : mags O2 F2) (A1 : mat O1) (A2 : mat O2) (init1 : rcar F1) (init2 : rcar F2),
  respects R -> respects_mag S -> mags_related R S M1 M2 -> mat_related R A1 A2 -> S init1 init2 -> 
  related_runs R S (matrix_inf_norm M1 A1 init1) (matrix_inf_norm M2 A2 init2).
Proof. exact rel_matrix_inf_norm. Qed.
Print Assumptions C86_matrix_inf_norm.

Theorem C86_matrix_inf_norm_noinit : forall (O1 O2 : ops) (R : O1 -> O2 -> Prop) (F1 F2 : rops) (S : F1 -> F2 -> Prop) (M1 : mags O1 F1) (M2 : mags O2 F2) (A1 : mat O1) (A2 : mat O2),
  respects R -> respects_mag S -> mags_related R S M1 M2 -> mat_related R A1 A2 -> 
  related_runs R S (matrix_inf_norm_noinit M1 A1) (matrix_inf_norm_noinit M2 A2).
Proof. exact rel_matrix_inf_norm_noinit. Qed.
Print Assumptions C86_matrix_inf_norm_noinit.

Theorem C86_matrix_one_norm : forall (O1 O2 : ops) (R : O1 -> O2 -> Prop) (F1 F2 : rops) (S : F1 -> F2 -> Prop) (M1 : mags O1 F1) (M2 : mags O2 F2) (A1 : mat O1) (A2 : mat O2) (init1 : rcar F1) (init2 : rcar F2),
  respects R -> respects_mag S -> mags_related R S M1 M2 -> mat_related R A1 A2 -> S init1 init2 -> 
  related_runs R S (matrix_one_norm M1 A1 init1) (matrix_one_norm M2 A2 init2).
Proof. exact rel_matrix_one_norm. Qed.
Print Assumptions C86_matrix_one_norm.

Theorem C86_matrix_one_norm_noinit : forall (O1 O2 : ops) (R : O1 -> O2 -> Prop) (F1 F2 : rops) (S : F1 -> F2 -> Prop) (M1 : mags O1 F1) (M2 : mags O2 F2) (A1 : mat O1) (A2 : mat O2),
  respects R -> respects_mag S -> mags_related R S M1 M2 -> mat_related R A1 A2 -> 
  related_runs R S (matrix_one_norm_noinit M1 A1) (matrix_one_norm_noinit M2 A2).
Proof. exact rel_matrix_one_norm_noinit. Qed.
Print Assumptions C86_matrix_one_norm_noinit.

(** * Algorithms of the Kokkos back end *)
Theorem C86_kk_matrix_rank_1_update : forall (O1 O2 : ops) (R : O1 -> O2 -> Prop) (x1 : vec O1) (x2 : vec O2) (y1 : vec O1) (y2 : vec O2) (A1 : mat O1) (A2 : mat O2),
  respects R -> vec_related R x1 x2 -> vec_related R y1 y2 -> mat_related R A1 A2 -> 
  related_par R (kk_matrix_rank_1_update x1 y1 A1) (kk_matrix_rank_1_update x2 y2 A2).
Proof. exact rel_kk_matrix_rank_1_update. Qed.
Print Assumptions C86_kk_matrix_rank_1_update.

Theorem C86_kk_matrix_rank_1_update_conj : forall (O1 O2 : ops) (R : O1 -> O2 -> Prop) (x1 : vec O1) (x2 : vec O2) (y1 : vec O1) (y2 : vec O2) (A1 : mat O1) (A2 : mat O2),
  respects R -> vec_related R x1 x2 -> vec_related R y1 y2 -> mat_related R A1 A2 -> 
  related_par R (kk_matrix_rank_1_update_conj x1 y1 A1) (kk_matrix_rank_1_update_conj x2 y2 A2).
Proof. exact rel_kk_matrix_rank_1_update_conj. Qed.
Print Assumptions C86_kk_matrix_rank_1_update_conj.

Theorem C86_kk_symmetric_matrix_rank_1_update : forall (O1 O2 : ops) (R : O1 -> O2 -> Prop) (x1 : vec O1) (x2 : vec O2) (A1 : mat O1) (A2 : mat O2) (t : triangle),
  respects R -> vec_related R x1 x2 -> mat_related R A1 A2 -> 
  related_par R (kk_symmetric_matrix_rank_1_update x1 A1 t) (kk_symmetric_matrix_rank_1_update x2 A2 t).
Proof. exact rel_kk_symmetric_matrix_rank_1_update. Qed.
Print Assumptions C86_kk_symmetric_matrix_rank_1_update.

Theorem C86_kk_hermitian_matrix_rank_1_update : forall (O1 O2 : ops) (R : O1 -> O2 -> Prop) (x1 : vec O1) (x2 : vec O2) (A1 : mat O1) (A2 : mat O2) (t : triangle),
  respects R -> vec_related R x1 x2 -> mat_related R A1 A2 -> 
  related_par R (kk_hermitian_matrix_rank_1_update x1 A1 t) (kk_hermitian_matrix_rank_1_update x2 A2 t).
Proof. exact rel_kk_hermitian_matrix_rank_1_update. Qed.
Print Assumptions C86_kk_hermitian_matrix_rank_1_update.

Theorem C86_kk_symmetric_matrix_rank_2_update : forall (O1 O2 : ops) (R : O1 -> O2 -> Prop) (x1 : vec O1) (x2 : vec O2) (y1 : vec O1) (y2 : vec O2) (A1 : mat O1) (A2 : mat O2) (t : triangle),
  respects R -> vec_related R x1 x2 -> vec_related R y1 y2 -> mat_related R A1 A2 -> 
  related_par R (kk_symmetric_matrix_rank_2_update x1 y1 A1 t) (kk_symmetric_matrix_rank_2_update x2 y2 A2 t).
Proof. exact rel_kk_symmetric_matrix_rank_2_update. Qed.
Print Assumptions C86_kk_symmetric_matrix_rank_2_update.

Theorem C86_kk_hermitian_matrix_rank_2_update : forall (O1 O2 : ops) (R : O1 -> O2 -> Prop) (x1 : vec O1) (x2 : vec O2) (y1 : vec O1) (y2 : vec O2) (A1 : mat O1) (A2 : mat O2) (t : triangle),
  respects R -> vec_related R x1 x2 -> vec_related R y1 y2 -> mat_related R A1 A2 -> 
  related_par R (kk_hermitian_matrix_rank_2_update x1 y1 A1 t) (kk_hermitian_matrix_rank_2_update x2 y2 A2 t).
Proof. exact rel_kk_hermitian_matrix_rank_2_update. Qed.
Print Assumptions C86_kk_hermitian_matrix_rank_2_update.

Theorem C86_kk_symmetric_matrix_rank_k_update : forall (O1 O2 : ops) (R : O1 -> O2 -> Prop) (alpha1 : car O1) (alpha2 : car O2) (A1 : mat O1) (A2 : mat O2) (C1 : mat O1) (C2 : mat O2) (t : triangle),
  respects R -> R alpha1 alpha2 -> mat_related R A1 A2 -> mat_related R C1 C2 -> 
  related_par R (kk_symmetric_matrix_rank_k_update alpha1 A1 C1 t) (kk_symmetric_matrix_rank_k_update alpha2 A2 C2 t).
Proof. exact rel_kk_symmetric_matrix_rank_k_update. Qed.
Print Assumptions C86_kk_symmetric_matrix_rank_k_update.

Theorem C86_kk_hermitian_matrix_rank_k_update : forall (O1 O2 : ops) (R : O1 -> O2 -> Prop) (alpha1 : car O1) (alpha2 : car O2) (A1 : mat O1) (A2 : mat O2) (C1 : mat O1) (C2 : mat O2) (t : triangle),
  respects R -> R alpha1 alpha2 -> mat_related R A1 A2 -> mat_related R C1 C2 -> 
  related_par R (kk_hermitian_matrix_rank_k_update alpha1 A1 C1 t) (kk_hermitian_matrix_rank_k_update alpha2 A2 C2 t).
Proof. exact rel_kk_hermitian_matrix_rank_k_update. Qed.
Print Assumptions C86_kk_hermitian_matrix_rank_k_update.

Theorem C86_kk_symmetric_matrix_rank_2k_update : forall (O1 O2 : ops) (R : O1 -> O2 -> Prop) (A1 : mat O1) (A2 : mat O2) (B1 : mat O1) (B2 : mat O2) (C1 : mat O1) (C2 : mat O2) (t : triangle),
  respects R -> mat_related R A1 A2 -> mat_related R B1 B2 -> mat_related R C1 C2 -> 
  related_par R (kk_symmetric_matrix_rank_2k_update A1 B1 C1 t) (kk_symmetric_matrix_rank_2k_update A2 B2 C2 t).
Proof. exact rel_kk_symmetric_matrix_rank_2k_update. Qed.
Print Assumptions C86_kk_symmetric_matrix_rank_2k_update.

Theorem C86_kk_hermitian_matrix_rank_2k_update : forall (O1 O2 : ops) (R : O1 -> O2 -> Prop) (A1 : mat O1) (A2 : mat O2) (B1 : mat O1) (B2 : mat O2) (C1 : mat O1) (C2 : mat O2) (t : triangle),
  respects R -> mat_related R A1 A2 -> mat_related R B1 B2 -> mat_related R C1 C2 -> 
  related_par R (kk_hermitian_matrix_rank_2k_update A1 B1 C1 t) (kk_hermitian_matrix_rank_2k_update A2 B2 C2 t).
Proof. exact rel_kk_hermitian_matrix_rank_2k_update. Qed.
Print Assumptions C86_kk_hermitian_matrix_rank_2k_update.

Theorem C86_kk_matrix_vector_product_upd : forall (O1 O2 : ops) (R : O1 -> O2 -> Prop) (A1 : mat O1) (A2 : mat O2) (x1 : vec O1) (x2 : vec O2) (y1 : vec O1) (y2 : vec O2) (z1 : vec O1) (z2 : vec O2),
  respects R -> mat_related R A1 A2 -> vec_related R x1 x2 -> vec_related R y1 y2 -> vec_related R z1 z2 -> 
  related_par R (kk_matrix_vector_product_upd A1 x1 y1 z1) (kk_matrix_vector_product_upd A2 x2 y2 z2).
Proof. exact rel_kk_matrix_vector_product_upd. Qed.
Print Assumptions C86_kk_matrix_vector_product_upd.

Theorem C86_kk_triangular_matrix_vector_product : forall (O1 O2 : ops) (R : O1 -> O2 -> Prop) (A1 : mat O1) (A2 : mat O2) (x1 : vec O1) (x2 : vec O2) (y1 : vec O1) (y2 : vec O2) (t : triangle) (d : diagonal),
  respects R -> mat_related R A1 A2 -> vec_related R x1 x2 -> vec_related R y1 y2 -> 
  related_par R (kk_triangular_matrix_vector_product A1 t d x1 y1) (kk_triangular_matrix_vector_product A2 t d x2 y2).
Proof. exact rel_kk_triangular_matrix_vector_product. Qed.
Print Assumptions C86_kk_triangular_matrix_vector_product.

Theorem C86_kk_triangular_matrix_vector_product_upd : forall (O1 O2 : ops) (R : O1 -> O2 -> Prop) (A1 : mat O1) (A2 : mat O2) (x1 : vec O1) (x2 : vec O2) (y1 : vec O1) (y2 : vec O2) (z1 : vec O1) (z2 : vec O2) (t : triangle) (d : diagonal),
  respects R -> mat_related R A1 A2 -> vec_related R x1 x2 -> vec_related R y1 y2 -> vec_related R z1 z2 -> 
  related_par R (kk_triangular_matrix_vector_product_upd A1 t d x1 y1 z1) (kk_triangular_matrix_vector_product_upd A2 t d x2 y2 z2).
Proof. exact rel_kk_triangular_matrix_vector_product_upd. Qed.
Print Assumptions C86_kk_triangular_matrix_vector_product_upd.

Theorem C86_kk_symmetric_matrix_right_product_upd : forall (O1 O2 : ops) (R : O1 -> O2 -> Prop) (A1 : mat O1) (A2 : mat O2) (B1 : mat O1) (B2 : mat O2) (E1 : mat O1) (E2 : mat O2) (C1 : mat O1) (C2 : mat O2) (t : triangle),
  respects R -> mat_related R A1 A2 -> mat_related R B1 B2 -> mat_related R E1 E2 -> mat_related R C1 C2 -> 
  related_par R (kk_symmetric_matrix_right_product_upd A1 t B1 E1 C1) (kk_symmetric_matrix_right_product_upd A2 t B2 E2 C2).
Proof. exact rel_kk_symmetric_matrix_right_product_upd. Qed.
Print Assumptions C86_kk_symmetric_matrix_right_product_upd.

Theorem C86_kk_hermitian_matrix_right_product_upd : forall (O1 O2 : ops) (R : O1 -> O2 -> Prop) (A1 : mat O1) (A2 : mat O2) (B1 : mat O1) (B2 : mat O2) (E1 : mat O1) (E2 : mat O2) (C1 : mat O1) (C2 : mat O2) (t : triangle),
  respects R -> mat_related R A1 A2 -> mat_related R B1 B2 -> mat_related R E1 E2 -> mat_related R C1 C2 -> 
  related_par R (kk_hermitian_matrix_right_product_upd A1 t B1 E1 C1) (kk_hermitian_matrix_right_product_upd A2 t B2 E2 C2).
Proof. exact rel_kk_hermitian_matrix_right_product_upd. Qed.
Print Assumptions C86_kk_hermitian_matrix_right_product_upd.

Theorem C86_kk_triangular_matrix_left_product_unit : forall (O1 O2 : ops) (R : O1 -> O2 -> Prop) (A1 : mat O1) (A2 : mat O2) (B1 : mat O1) (B2 : mat O2) (C1 : mat O1) (C2 : mat O2) (t : triangle),
  respects R -> mat_related R A1 A2 -> mat_related R B1 B2 -> mat_related R C1 C2 -> 
  related_par R (kk_triangular_matrix_left_product_unit A1 t B1 C1) (kk_triangular_matrix_left_product_unit A2 t B2 C2).
Proof. exact rel_kk_triangular_matrix_left_product_unit. Qed.
Print Assumptions C86_kk_triangular_matrix_left_product_unit.

Theorem C86_kk_triangular_matrix_right_product_unit : forall (O1 O2 : ops) (R : O1 -> O2 -> Prop) (A1 : mat O1) (A2 : mat O2) (B1 : mat O1) (B2 : mat O2) (C1 : mat O1) (C2 : mat O2) (t : triangle),
  respects R -> mat_related R A1 A2 -> mat_related R B1 B2 -> mat_related R C1 C2 -> 
  related_par R (kk_triangular_matrix_right_product_unit A1 t B1 C1) (kk_triangular_matrix_right_product_unit A2 t B2 C2).
Proof. exact rel_kk_triangular_matrix_right_product_unit. Qed.
Print Assumptions C86_kk_triangular_matrix_right_product_unit.

Theorem C86_kk_triangular_matrix_left_product_inplace_unit : forall (O1 O2 : ops) (R : O1 -> O2 -> Prop) (A1 : mat O1) (A2 : mat O2) (C1 : mat O1) (C2 : mat O2) (t : triangle),
  respects R -> mat_related R A1 A2 -> mat_related R C1 C2 -> 
  related_par R (kk_triangular_matrix_left_product_inplace_unit A1 t C1) (kk_triangular_matrix_left_product_inplace_unit A2 t C2).
Proof. exact rel_kk_triangular_matrix_left_product_inplace_unit. Qed.
Print Assumptions C86_kk_triangular_matrix_left_product_inplace_unit.

Theorem C86_kk_triangular_matrix_right_product_inplace_unit : forall (O1 O2 : ops) (R : O1 -> O2 -> Prop) (A1 : mat O1) (A2 : mat O2) (C1 : mat O1) (C2 : mat O2) (t : triangle),
  respects R -> mat_related R A1 A2 -> mat_related R C1 C2 -> 
  related_par R (kk_triangular_matrix_right_product_inplace_unit A1 t C1) (kk_triangular_matrix_right_product_inplace_unit A2 t C2).
Proof. exact rel_kk_triangular_matrix_right_product_inplace_unit. Qed.
Print Assumptions C86_kk_triangular_matrix_right_product_inplace_unit.

Theorem C86_kk_copy_2 : forall (O1 O2 : ops) (R : O1 -> O2 -> Prop) (x1 : mat O1) (x2 : mat O2) (y1 : mat O1) (y2 : mat O2),
  respects R -> mat_related R x1 x2 -> mat_related R y1 y2 -> 
  related_par R (kk_copy_2 x1 y1) (kk_copy_2 x2 y2).
Proof. exact rel_kk_copy_2. Qed.
Print Assumptions C86_kk_copy_2.

Theorem C86_kk_swap_1 : forall (O1 O2 : ops) (R : O1 -> O2 -> Prop) (x1 : vec O1) (x2 : vec O2) (y1 : vec O1) (y2 : vec O2),
  respects R -> vec_related R x1 x2 -> vec_related R y1 y2 -> 
  related_par R (kk_swap_1 x1 y1) (kk_swap_1 x2 y2).
Proof. exact rel_kk_swap_1. Qed.
Print Assumptions C86_kk_swap_1.

Theorem C86_kk_swap_2 : forall (O1 O2 : ops) (R : O1 -> O2 -> Prop) (x1 : mat O1) (x2 : mat O2) (y1 : mat O1) (y2 : mat O2),
  respects R -> mat_related R x1 x2 -> mat_related R y1 y2 -> 
  related_par R (kk_swap_2 x1 y1) (kk_swap_2 x2 y2).
Proof. exact rel_kk_swap_2. Qed.
Print Assumptions C86_kk_swap_2.

Theorem C86_kk_symmetric_matrix_vector_product : forall (O1 O2 : ops) (R : O1 -> O2 -> Prop) (A1 : mat O1) (A2 : mat O2) (x1 : vec O1) (x2 : vec O2) (y1 : vec O1) (y2 : vec O2) (t : triangle),
  respects R -> mat_related R A1 A2 -> vec_related R x1 x2 -> vec_related R y1 y2 -> 
  related_par R (kk_symmetric_matrix_vector_product A1 t x1 y1) (kk_symmetric_matrix_vector_product A2 t x2 y2).
Proof. exact rel_kk_symmetric_matrix_vector_product. Qed.
Print Assumptions C86_kk_symmetric_matrix_vector_product.

Theorem C86_kk_symmetric_matrix_vector_product_upd : forall (O1 O2 : ops) (R : O1 -> O2 -> Prop) (A1 : mat O1) (A2 : mat O2) (x1 : vec O1) (x2 : vec O2) (y1 : vec O1) (y2 : vec O2) (z1 : vec O1) (z2 : vec O2) (t : triangle),
  respects R -> mat_related R A1 A2 -> vec_related R x1 x2 -> vec_related R y1 y2 -> vec_related R z1 z2 -> 
  related_par R (kk_symmetric_matrix_vector_product_upd A1 t x1 y1 z1) (kk_symmetric_matrix_vector_product_upd A2 t x2 y2 z2).
Proof. exact rel_kk_symmetric_matrix_vector_product_upd. Qed.
Print Assumptions C86_kk_symmetric_matrix_vector_product_upd.

Theorem C86_kk_hermitian_matrix_vector_product : forall (O1 O2 : ops) (R : O1 -> O2 -> Prop) (A1 : mat O1) (A2 : mat O2) (x1 : vec O1) (x2 : vec O2) (y1 : vec O1) (y2 : vec O2) (t : triangle),
  respects R -> mat_related R A1 A2 -> vec_related R x1 x2 -> vec_related R y1 y2 -> 
  related_par R (kk_hermitian_matrix_vector_product A1 t x1 y1) (kk_hermitian_matrix_vector_product A2 t x2 y2).
Proof. exact rel_kk_hermitian_matrix_vector_product. Qed.
Print Assumptions C86_kk_hermitian_matrix_vector_product.

Theorem C86_kk_hermitian_matrix_vector_product_upd : forall (O1 O2 : ops) (R : O1 -> O2 -> Prop) (A1 : mat O1) (A2 : mat O2) (x1 : vec O1) (x2 : vec O2) (y1 : vec O1) (y2 : vec O2) (z1 : vec O1) (z2 : vec O2) (t : triangle),
  respects R -> mat_related R A1 A2 -> vec_related R x1 x2 -> vec_related R y1 y2 -> vec_related R z1 z2 -> 
  related_par R (kk_hermitian_matrix_vector_product_upd A1 t x1 y1 z1) (kk_hermitian_matrix_vector_product_upd A2 t x2 y2 z2).
Proof. exact rel_kk_hermitian_matrix_vector_product_upd. Qed.
Print Assumptions C86_kk_hermitian_matrix_vector_product_upd.

Theorem C86_kk_symmetric_matrix_left_product : forall (O1 O2 : ops) (R : O1 -> O2 -> Prop) (A1 : mat O1) (A2 : mat O2) (B1 : mat O1) (B2 : mat O2) (C1 : mat O1) (C2 : mat O2) (t : triangle),
  respects R -> mat_related R A1 A2 -> mat_related R B1 B2 -> mat_related R C1 C2 -> 
  related_par R (kk_symmetric_matrix_left_product A1 t B1 C1) (kk_symmetric_matrix_left_product A2 t B2 C2).
Proof. exact rel_kk_symmetric_matrix_left_product. Qed.
Print Assumptions C86_kk_symmetric_matrix_left_product.

Theorem C86_kk_symmetric_matrix_left_product_upd : forall (O1 O2 : ops) (R : O1 -> O2 -> Prop) (A1 : mat O1) (A2 : mat O2) (B1 : mat O1) (B2 : mat O2) (E1 : mat O1) (E2 : mat O2) (C1 : mat O1) (C2 : mat O2) (t : triangle),
  respects R -> mat_related R A1 A2 -> mat_related R B1 B2 -> mat_related R E1 E2 -> mat_related R C1 C2 -> 
  related_par R (kk_symmetric_matrix_left_product_upd A1 t B1 E1 C1) (kk_symmetric_matrix_left_product_upd A2 t B2 E2 C2).
Proof. exact rel_kk_symmetric_matrix_left_product_upd. Qed.
Print Assumptions C86_kk_symmetric_matrix_left_product_upd.

Theorem C86_kk_symmetric_matrix_right_product : forall (O1 O2 : ops) (R : O1 -> O2 -> Prop) (A1 : mat O1) (A2 : mat O2) (B1 : mat O1) (B2 : mat O2) (C1 : mat O1) (C2 : mat O2) (t : triangle),
  respects R -> mat_related R A1 A2 -> mat_related R B1 B2 -> mat_related R C1 C2 -> 
  related_par R (kk_symmetric_matrix_right_product A1 t B1 C1) (kk_symmetric_matrix_right_product A2 t B2 C2).
Proof. exact rel_kk_symmetric_matrix_right_product. Qed.
Print Assumptions C86_kk_symmetric_matrix_right_product.

Theorem C86_kk_hermitian_matrix_left_product : forall (O1 O2 : ops) (R : O1 -> O2 -> Prop) (A1 : mat O1) (A2 : mat O2) (B1 : mat O1) (B2 : mat O2) (C1 : mat O1) (C2 : mat O2) (t : triangle),
  respects R -> mat_related R A1 A2 -> mat_related R B1 B2 -> mat_related R C1 C2 -> 
  related_par R (kk_hermitian_matrix_left_product A1 t B1 C1) (kk_hermitian_matrix_left_product A2 t B2 C2).
Proof. exact rel_kk_hermitian_matrix_left_product. Qed.
Print Assumptions C86_kk_hermitian_matrix_left_product.

Theorem C86_kk_hermitian_matrix_left_product_upd : forall (O1 O2 : ops) (R : O1 -> O2 -> Prop) (A1 : mat O1) (A2 : mat O2) (B1 : mat O1) (B2 : mat O2) (E1 : mat O1) (E2 : mat O2) (C1 : mat O1) (C2 : mat O2) (t : triangle),
  respects R -> mat_related R A1 A2 -> mat_related R B1 B2 -> mat_related R E1 E2 -> mat_related R C1 C2 -> 
  related_par R (kk_hermitian_matrix_left_product_upd A1 t B1 E1 C1) (kk_hermitian_matrix_left_product_upd A2 t B2 E2 C2).
Proof. exact rel_kk_hermitian_matrix_left_product_upd. Qed.
Print Assumptions C86_kk_hermitian_matrix_left_product_upd.

Theorem C86_kk_hermitian_matrix_right_product : forall (O1 O2 : ops) (R : O1 -> O2 -> Prop) (A1 : mat O1) (A2 : mat O2) (B1 : mat O1) (B2 : mat O2) (C1 : mat O1) (C2 : mat O2) (t : triangle),
  respects R -> mat_related R A1 A2 -> mat_related R B1 B2 -> mat_related R C1 C2 -> 
  related_par R (kk_hermitian_matrix_right_product A1 t B1 C1) (kk_hermitian_matrix_right_product A2 t B2 C2).
Proof. exact rel_kk_hermitian_matrix_right_product. Qed.
Print Assumptions C86_kk_hermitian_matrix_right_product.


(** * Concrete cases *)
(** Integers modulo 2^8, the element type uint8_t as far as +, - and * go. *)
Definition u8ops : ops := Ops 0%Z 1%Z (fun x y => (x + y) mod 256)%Z (fun x y => (x - y) mod 256)%Z (fun x y => (x * y) mod 256)%Z
  (fun x _ => x) (fun x => x) (fun x => x).
Definition to_u8 (x : zops) (y : u8ops) : Prop := y = (x mod 256)%Z.
Lemma to_u8_respects : @respects zops u8ops to_u8.
Proof.
  constructor; unfold to_u8; simpl; intros; subst; auto; symmetry;
    first [apply Z.add_mod; lia|apply Zminus_mod|apply Z.mul_mod; lia].
Qed.
(** A product of integer matrices reduced modulo 2^8 is the product of the reduced matrices, whatever they contain. *)
Example C86_reduction_case : forall (m : mem zops) A1 B1 C1 A2 B2 C2 x m',
  mat_related to_u8 A1 A2 -> mat_related to_u8 B1 B2 -> mat_related to_u8 C1 C2 -> run (@matrix_product zops A1 B1 C1) m = Ok x m' ->
  exists y m2, run (@matrix_product u8ops A2 B2 C2) (fun a => option_map (fun v => v mod 256)%Z (m a)) = Ok y m2 /\ x = y /\
    forall a, m2 a = option_map (fun v => v mod 256)%Z (m' a).
Proof.
  intros m A1 B1 C1 A2 B2 C2 x m' HA HB HC Hr.
  apply (@C86_homomorphism zops u8ops (fun v => v mod 256)%Z _ _ eq (matrix_product A1 B1 C1) (matrix_product A2 B2 C2) m x m'); auto.
  apply C86_matrix_product; auto. exact to_u8_respects.
Qed.
(** 2 x 2: (17, 300; 2, 40) (5, 1; 9, -3) = (2785, -883; 370, -118); modulo 256: 225, 141; 114, 138. *)
Example C86_reduction_run :
  match run (@matrix_product zops (row_major 0 2 2) (row_major 4 2 2) (row_major 8 2 2)) (mem_of [17; 300; 2; 40; 5; 1; 9; -3; 0; 0; 0; 0]%Z) with
  | Ok _ m => map m (seq 8 4) = map Some [2785; -883; 370; -118]%Z | _ => False end /\
  match run (@matrix_product u8ops (row_major 0 2 2) (row_major 4 2 2) (row_major 8 2 2)) (mem_of [17; 44; 2; 40; 5; 1; 9; 253; 0; 0; 0; 0]%Z) with
  | Ok _ m => map m (seq 8 4) = map Some [225; 141; 114; 138]%Z | _ => False end.
Proof. split; reflexivity. Qed.

(** Integers as Gaussian integers without imaginary part. *)
Definition embedded (x : zops) (y : gops) : Prop := y = (x, 0%Z).
Lemma embedded_respects : @respects zops gops embedded.
Proof. constructor; unfold embedded, gmul; simpl; intros; subst; unfold gmul; simpl; f_equal; ring || lia. Qed.
Lemma embedded_view : forall b r c, mat_related embedded (@row_major zops b r c) (@row_major gops b r c).
Proof. intros. repeat split. Qed.
(** A Hermitian rank-1 update of real data gives real data: x = (1, -2), A += x x^H. *)
Example C86_embedding_case : forall m x m', run (@hermitian_matrix_rank_1_update zops (vec_at 0 2) (row_major 2 2 2) Lower) m = Ok x m' ->
  exists m2, run (@hermitian_matrix_rank_1_update gops (vec_at 0 2) (row_major 2 2 2) Lower) (fun a => option_map (fun v => (v, 0%Z)) (m a)) = Ok tt m2 /\
    forall a, m2 a = option_map (fun v => (v, 0%Z)) (m' a).
Proof.
  intros m x m' Hr.
  destruct (@C86_homomorphism zops gops (fun v => (v, 0%Z)) _ _ eq (@hermitian_matrix_rank_1_update zops (vec_at 0 2) (row_major 2 2 2) Lower) (@hermitian_matrix_rank_1_update gops (vec_at 0 2) (row_major 2 2 2) Lower) m x m')
    as (y & m2 & H1 & H2 & H3); auto.
  - apply C86_hermitian_matrix_rank_1_update; [exact embedded_respects|repeat split|apply embedded_view].
  - destruct y. eauto.
Qed.
Example C86_embedding_run :
  match run (@hermitian_matrix_rank_1_update zops (vec_at 0 2) (row_major 2 2 2) Lower) (mem_of [1; -2; 10; 20; 30; 40]%Z) with
  | Ok _ m => map m (seq 2 4) = map Some [11; 20; 28; 44]%Z | _ => False end.
Proof. reflexivity. Qed.

(** Multiples of 3 stay multiples of 3. *)
Definition threes (x y : zops) : Prop := x = y /\ exists k, x = (3 * k)%Z.
Lemma threes_respects : @respects zops zops threes.
Proof.
  constructor; unfold threes; simpl.
  - split; auto. exists 0%Z. auto.
  - intros x1 x2 y1 y2 [E1 [k Ek]] [E2 [l El]]. split; [congruence|]. exists (k + l)%Z. rewrite Ek, El. exact (eq_sym (Z.mul_add_distr_l 3 k l)).
  - intros x1 x2 y1 y2 [E1 [k Ek]] [E2 [l El]]. split; [congruence|]. exists (k - l)%Z. rewrite Ek, El. exact (eq_sym (Z.mul_sub_distr_l 3 k l)).
  - intros x1 x2 y1 y2 [E1 [k Ek]] [E2 [l El]]. split; [congruence|]. exists (k * y1)%Z. rewrite Ek. exact (eq_sym (Z.mul_assoc 3 k y1)).
  - auto.
  - auto.
Qed.
Example C86_closed_case : forall m x m', (forall a v, m a = Some v -> exists k, v = (3 * k)%Z) ->
  run (@triangular_matrix_vector_product_inplace zops (row_major 0 2 2) Upper Explicit (vec_at 4 2)) m = Ok x m' ->
  forall a v, m' a = Some v -> exists k, v = (3 * k)%Z.
Proof.
  intros m x m' Hm Hr. eapply (@C86_closed_subset zops (fun v => exists k, v = (3 * k)%Z)); eauto.
  apply C86_triangular_matrix_vector_product_inplace; [exact threes_respects|repeat split|repeat split].
Qed.
(** The parallel rank-1 update of the Kokkos back end on reduced data ends with reduced results, in every schedule. *)
Example C86_parallel_case : forall m1 m2 m2', mem_related to_u8 m1 m2 ->
  par_result (@kk_matrix_rank_1_update u8ops (vec_at 0 2) (vec_at 2 2) (row_major 4 2 2)) m2 m2' ->
  exists m1', par_result (@kk_matrix_rank_1_update zops (vec_at 0 2) (vec_at 2 2) (row_major 4 2 2)) m1 m1' /\ mem_related to_u8 m1' m2'.
Proof.
  intros m1 m2 m2' Hm Hr.
  assert (H : related_par to_u8 (@kk_matrix_rank_1_update zops (vec_at 0 2) (vec_at 2 2) (row_major 4 2 2)) (@kk_matrix_rank_1_update u8ops (vec_at 0 2) (vec_at 2 2) (row_major 4 2 2))).
  { apply C86_kk_matrix_rank_1_update; [exact to_u8_respects|repeat split|repeat split|repeat split]. }
  destruct H as (_ & _ & H). destruct (H _ _ Hm) as [_ K]. auto.
Qed.

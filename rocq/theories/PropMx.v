(** C75: over every commutative ring with division, in particular every field, the operations are those of the
    Mathematical Components library: *m, ^T, +, and invmx for the triangular solves. *)
From mathcomp Require Import all_ssreflect all_algebra.
From Coq Require Import ZArith.
From Verif Require Import Mem Scalar View Spec SpecMx Idx Blas2 Blas3 PfMxOps Inst.
Set Implicit Arguments.
Local Open Scope ring_scope.
Import GRing.Theory.

(** y = M v *)
Theorem C75_gemv : forall (R : comUnitRingType) (m : mem (ring_ops R)) A x y p q (M : 'M[R]_(p, q)) (v : 'cV_q),
  holds_mx m A M -> holds_cv m x v -> vext y = p -> vwritable y -> allocated m (vcells y) ->
  disjoint (mcells A) (vcells y) -> disjoint (vcells x) (vcells y) ->
  succeeds (matrix_vector_product A x y) m (fun _ m' => holds_cv m' y (M *m v) /\ changes_only m m' (vcells y)).
Proof. exact gemv_mx. Qed.
Print Assumptions C75_gemv.

(** z = w + M v *)
Theorem C75_gemv_updating : forall (R : comUnitRingType) (m : mem (ring_ops R)) A x y z p q (M : 'M[R]_(p, q)) (v : 'cV_q) (w : 'cV_p),
  holds_mx m A M -> holds_cv m x v -> holds_cv m y w -> vext z = p -> vwritable z -> allocated m (vcells z) ->
  disjoint (mcells A) (vcells z) -> disjoint (vcells x) (vcells z) -> disjoint_or_aligned_v y z ->
  succeeds (matrix_vector_product_upd A x y z) m (fun _ m' => holds_cv m' z (w + M *m v) /\ changes_only m m' (vcells z)).
Proof. exact gemv_upd_mx. Qed.
Print Assumptions C75_gemv_updating.

(** M symmetric, one triangle of it stored *)
Theorem C75_symv : forall (R : comUnitRingType) (m : mem (ring_ops R)) A t x y n (M : 'M[R]_n) (v : 'cV_n),
  symmetric_mx M ->
  holds_mx_on m A (in_tri t) M -> holds_cv m x v -> vext y = n -> vwritable y -> allocated m (vcells y) ->
  disjoint (mcells_on A (in_tri t)) (vcells y) -> disjoint (vcells x) (vcells y) ->
  succeeds (symmetric_matrix_vector_product A t x y) m (fun _ m' => holds_cv m' y (M *m v) /\ changes_only m m' (vcells y)).
Proof. exact symv_mx. Qed.
Print Assumptions C75_symv.

(** M triangular *)
Theorem C75_trmv : forall (R : comUnitRingType) (m : mem (ring_ops R)) A t d x y n (M : 'M[R]_n) (v : 'cV_n),
  triangular t d M ->
  holds_mx_on m A (stored t d) M -> holds_cv m x v -> vext y = n -> vwritable y -> allocated m (vcells y) ->
  disjoint (mcells_on A (stored t d)) (vcells y) -> disjoint (vcells x) (vcells y) ->
  succeeds (triangular_matrix_vector_product A t d x y) m (fun _ m' => holds_cv m' y (M *m v) /\ changes_only m m' (vcells y)).
Proof. exact trmv_mx. Qed.
Print Assumptions C75_trmv.

(** the same, overwriting the vector *)
Theorem C75_trmv_inplace : forall (R : comUnitRingType) (m : mem (ring_ops R)) A t d y n (M : 'M[R]_n) (v : 'cV_n),
  triangular t d M ->
  holds_mx_on m A (stored t d) M -> holds_cv m y v -> vwritable y -> disjoint (mcells_on A (stored t d)) (vcells y) ->
  succeeds (triangular_matrix_vector_product_inplace A t d y) m (fun _ m' => holds_cv m' y (M *m v) /\ changes_only m m' (vcells y)).
Proof. exact trmv_inplace_mx. Qed.
Print Assumptions C75_trmv_inplace.

(** A + v w^T *)
Theorem C75_ger : forall (R : comUnitRingType) (m : mem (ring_ops R)) x y A p q (M : 'M[R]_(p, q)) (v : 'cV_p) (w : 'cV_q),
  holds_mx m A M -> holds_cv m x v -> holds_cv m y w -> mwritable A ->
  disjoint (vcells x) (mcells A) -> disjoint (vcells y) (mcells A) ->
  succeeds (matrix_rank_1_update x y A) m (fun _ m' => holds_mx m' A (M + v *m w^T) /\ changes_only m m' (mcells A)).
Proof. exact ger_mx. Qed.
Print Assumptions C75_ger.

(** C = M N *)
Theorem C75_gemm : forall (R : comUnitRingType) (m : mem (ring_ops R)) A B C p q r (M : 'M[R]_(p, q)) (N : 'M[R]_(q, r)),
  holds_mx m A M -> holds_mx m B N -> ext0 C = p -> ext1 C = r -> mwritable C -> allocated m (mcells C) ->
  disjoint (mcells A) (mcells C) -> disjoint (mcells B) (mcells C) ->
  succeeds (matrix_product A B C) m (fun _ m' => holds_mx m' C (M *m N) /\ changes_only m m' (mcells C)).
Proof. exact gemm_mx. Qed.
Print Assumptions C75_gemm.

(** C = K + M N *)
Theorem C75_gemm_updating : forall (R : comUnitRingType) (m : mem (ring_ops R)) A B E C p q r (M : 'M[R]_(p, q)) (N : 'M[R]_(q, r)) (K : 'M[R]_(p, r)),
  holds_mx m A M -> holds_mx m B N -> holds_mx m E K -> ext0 C = p -> ext1 C = r -> mwritable C -> allocated m (mcells C) ->
  disjoint (mcells A) (mcells C) -> disjoint (mcells B) (mcells C) -> disjoint_or_aligned_m E C ->
  succeeds (matrix_product_upd A B E C) m (fun _ m' => holds_mx m' C (K + M *m N) /\ changes_only m m' (mcells C)).
Proof. exact gemm_upd_mx. Qed.
Print Assumptions C75_gemm_updating.

(** C = M N, M symmetric *)
Theorem C75_symm_left : forall (R : comUnitRingType) (m : mem (ring_ops R)) A t B C n r (M : 'M[R]_n) (N : 'M[R]_(n, r)),
  symmetric_mx M ->
  holds_mx_on m A (in_tri t) M -> holds_mx m B N -> ext0 C = n -> ext1 C = r -> mwritable C -> allocated m (mcells C) ->
  disjoint (mcells_on A (in_tri t)) (mcells C) -> disjoint (mcells B) (mcells C) ->
  succeeds (symmetric_matrix_product_left A t B C) m (fun _ m' => holds_mx m' C (M *m N) /\ changes_only m m' (mcells C)).
Proof. exact symm_left_mx. Qed.
Print Assumptions C75_symm_left.

(** C = N M, M symmetric *)
Theorem C75_symm_right : forall (R : comUnitRingType) (m : mem (ring_ops R)) A t B C n r (M : 'M[R]_n) (N : 'M[R]_(r, n)),
  symmetric_mx M ->
  holds_mx_on m A (in_tri t) M -> holds_mx m B N -> ext0 C = r -> ext1 C = n -> mwritable C -> allocated m (mcells C) ->
  disjoint (mcells_on A (in_tri t)) (mcells C) -> disjoint (mcells B) (mcells C) ->
  succeeds (symmetric_matrix_product_right B A t C) m (fun _ m' => holds_mx m' C (N *m M) /\ changes_only m m' (mcells C)).
Proof. exact symm_right_mx. Qed.
Print Assumptions C75_symm_right.

(** C = M C, M triangular *)
Theorem C75_trmm_left_inplace : forall (R : comUnitRingType) (m : mem (ring_ops R)) A t d C n r (M : 'M[R]_n) (N : 'M[R]_(n, r)),
  triangular t d M ->
  holds_mx_on m A (stored t d) M -> holds_mx m C N -> mwritable C -> disjoint (mcells_on A (stored t d)) (mcells C) ->
  succeeds (triangular_matrix_left_product A t d C) m (fun _ m' => holds_mx m' C (M *m N) /\ changes_only m m' (mcells C)).
Proof. exact trmm_left_inplace_mx. Qed.
Print Assumptions C75_trmm_left_inplace.

(** C = C M, M triangular *)
Theorem C75_trmm_right_inplace : forall (R : comUnitRingType) (m : mem (ring_ops R)) A t d C n r (M : 'M[R]_n) (N : 'M[R]_(r, n)),
  triangular t d M ->
  holds_mx_on m A (stored t d) M -> holds_mx m C N -> mwritable C -> disjoint (mcells_on A (stored t d)) (mcells C) ->
  succeeds (triangular_matrix_right_product A t d C) m (fun _ m' => holds_mx m' C (N *m M) /\ changes_only m m' (mcells C)).
Proof. exact trmm_right_inplace_mx. Qed.
Print Assumptions C75_trmm_right_inplace.

(** C + M M^T *)
Theorem C75_syrk : forall (R : comUnitRingType) (m : mem (ring_ops R)) A C t n k (M : 'M[R]_(n, k)) (N : 'M[R]_n),
  holds_mx m A M -> holds_mx_on m C (in_tri t) N -> mwritable_on C (in_tri t) -> disjoint (mcells A) (mcells_on C (in_tri t)) ->
  succeeds (symmetric_matrix_rank_k_update A C t) m (fun _ m' =>
    holds_mx_on m' C (in_tri t) (N + M *m M^T) /\ changes_only m m' (mcells_on C (in_tri t))).
Proof. exact syrk_mx. Qed.
Print Assumptions C75_syrk.

(** C + M K^T + K M^T *)
Theorem C75_syr2k : forall (R : comUnitRingType) (m : mem (ring_ops R)) A B C t n k (M K : 'M[R]_(n, k)) (N : 'M[R]_n),
  holds_mx m A M -> holds_mx m B K -> holds_mx_on m C (in_tri t) N -> mwritable_on C (in_tri t) ->
  disjoint (mcells A) (mcells_on C (in_tri t)) -> disjoint (mcells B) (mcells_on C (in_tri t)) ->
  succeeds (symmetric_matrix_rank_2k_update A B C t) m (fun _ m' =>
    holds_mx_on m' C (in_tri t) (N + M *m K^T + K *m M^T) /\ changes_only m m' (mcells_on C (in_tri t))).
Proof. exact syr2k_mx. Qed.
Print Assumptions C75_syr2k.

(** x = M^-1 v for an invertible triangular matrix *)
Theorem C75_trsv : forall (R : comUnitRingType) ty (m : mem (ring_ops R)) A t d B X n (M : 'M[R]_n) (v : 'cV_n),
  triangular t d M -> M \in unitmx ->
  fits ty n -> (n = 0%N -> t = Upper -> ty <> U32) ->
  holds_mx_on m A (stored t d) M -> holds_cv m B v -> vext X = n -> vwritable X -> allocated m (vcells X) ->
  disjoint (mcells_on A (stored t d)) (vcells X) -> disjoint_or_aligned_v B X ->
  succeeds (triangular_matrix_vector_solve ty A t d B X) m (fun _ m' =>
    holds_cv m' X (invmx M *m v) /\ changes_only m m' (vcells X)).
Proof. exact trsv_mx. Qed.
Print Assumptions C75_trsv.

(** X = M^-1 N *)
Theorem C75_trsm_left : forall (R : comUnitRingType) ty (m : mem (ring_ops R)) A t d B X n r (M : 'M[R]_n) (N : 'M[R]_(n, r)),
  triangular t d M -> M \in unitmx ->
  fits ty n -> (n = 0%N -> t = Upper -> ty <> U32) ->
  holds_mx_on m A (stored t d) M -> holds_mx m B N -> ext0 X = n -> ext1 X = r -> mwritable X -> allocated m (mcells X) ->
  disjoint (mcells_on A (stored t d)) (mcells X) -> disjoint_or_aligned_m B X ->
  succeeds (triangular_matrix_matrix_left_solve ty A t d B X) m (fun _ m' =>
    holds_mx m' X (invmx M *m N) /\ changes_only m m' (mcells X)).
Proof. exact trsm_left_mx. Qed.
Print Assumptions C75_trsm_left.

(** X = N M^-1 *)
Theorem C75_trsm_right : forall (R : comUnitRingType) ty (m : mem (ring_ops R)) A t d B X n r (M : 'M[R]_n) (N : 'M[R]_(r, n)),
  triangular t d M -> M \in unitmx ->
  (t = Lower -> fits (make_signed ty) n) ->
  holds_mx_on m A (stored t d) M -> holds_mx m B N -> ext0 X = r -> ext1 X = n -> mwritable X -> allocated m (mcells X) ->
  disjoint (mcells_on A (stored t d)) (mcells X) -> disjoint_or_aligned_m B X ->
  succeeds (triangular_matrix_matrix_right_solve ty A t d B X) m (fun _ m' =>
    holds_mx m' X (N *m invmx M) /\ changes_only m m' (mcells X)).
Proof. exact trsm_right_mx. Qed.
Print Assumptions C75_trsm_right.

(** transposed() is the transposed matrix *)
Theorem C75_transposed : forall (R : comUnitRingType) fixp (m : mem (ring_ops R)) A At (S : nat -> nat -> Prop) p q (M : 'M[R]_(p, q)),
  transposed fixp A = Some At -> layout_ok (mlay A) (ext0 A) (ext1 A) ->
  holds_mx_on m A S M -> holds_mx_on m At (fun j i => S i j) M^T.
Proof. exact transposed_mx. Qed.
Print Assumptions C75_transposed.

(** Two solves with the factors L (unit diagonal) and U in one matrix: X = (L U)^-1 N *)
Theorem C75_lu_solve : forall (R : comUnitRingType) ty (m : mem (ring_ops R)) A B X n r (P Q : 'M[R]_n) (N : 'M[R]_(n, r)),
  triangular Lower ImplicitUnit P -> triangular Upper Explicit Q -> Q \in unitmx ->
  fits ty n -> (n = 0%N -> ty <> U32) ->
  holds_mx_on m A (stored Lower ImplicitUnit) P -> holds_mx_on m A (stored Upper Explicit) Q ->
  holds_mx m B N -> ext0 X = n -> ext1 X = r -> mwritable X -> allocated m (mcells X) ->
  disjoint (mcells A) (mcells X) -> disjoint_or_aligned_m B X ->
  succeeds (bind (triangular_matrix_matrix_left_solve ty A Lower ImplicitUnit B X)
    (fun _ => triangular_matrix_matrix_left_solve ty A Upper Explicit X X)) m (fun _ m' =>
    holds_mx m' X (invmx (P *m Q) *m N) /\ changes_only m m' (mcells X)).
Proof. exact lu_solve. Qed.
Print Assumptions C75_lu_solve.

(** Two solves with L and its transposed view: X = (L L^T)^-1 N *)
Theorem C75_cholesky_solve : forall (R : comUnitRingType) fixp ty (m : mem (ring_ops R)) A At B X n r (P : 'M[R]_n) (N : 'M[R]_(n, r)),
  triangular Lower Explicit P -> P \in unitmx ->
  fits ty n -> (n = 0%N -> ty <> U32) ->
  transposed fixp A = Some At -> layout_ok (mlay A) (ext0 A) (ext1 A) ->
  holds_mx_on m A (stored Lower Explicit) P ->
  holds_mx m B N -> ext0 X = n -> ext1 X = r -> mwritable X -> allocated m (mcells X) ->
  disjoint (mcells A) (mcells X) -> disjoint_or_aligned_m B X ->
  succeeds (bind (triangular_matrix_matrix_left_solve ty A Lower Explicit B X)
    (fun _ => triangular_matrix_matrix_left_solve ty At Upper Explicit X X)) m (fun _ m' =>
    holds_mx m' X (invmx (P *m P^T) *m N) /\ changes_only m m' (mcells X)).
Proof. exact cholesky_solve. Qed.
Print Assumptions C75_cholesky_solve.

(** Matrices from lists, for the concrete cases. *)
Definition of_rows (R : comUnitRingType) p q (l : seq (seq R)) : 'M[R]_(p, q) := \matrix_(i, j) nth 0 (nth [::] l i) j.
Arguments of_rows {R} p q l.
Definition num (a : nat) : rat := a%:R.
Arguments num a%N.
Notation Qo := (ring_ops [comUnitRingType of rat]).
Ltac ords := match goal with
  | |- forall _ : 'I_ _, _ => let H := fresh in intros [[|[|[|?]]] H]; try (exfalso; clear -H; discriminate H)
  | |- _ => idtac end.
Ltac entry := first [ by rewrite !mxE | by rewrite !mxE /=; apply/eqP; vm_compute ].
Ltac cells := split; [reflexivity|split; [reflexivity|]]; ords; ords; let H := fresh in intro H; unfold stored, in_tri in H; simpl in H;
  first [ exfalso; solve [ Lia.lia | apply H; reflexivity | destruct H as [_ H]; apply H; reflexivity ] | eexists; split; [reflexivity | entry] ].
Ltac tri := split; [ords; ords; first [let H := fresh in intro H; exfalso; apply H; simpl; Lia.lia | by move=> _; entry] | first [by [] | by move=> _; ords; entry]].
Ltac vcells1 := split; [reflexivity|]; ords; (eexists; split; [reflexivity | entry]).
Ltac sym := unfold symmetric_mx; apply/matrixP; let i := fresh in let j := fresh in intros i j; revert i j; ords; ords; entry.
Ltac side := first [by [] | by cells | by vcells1 | by tri | by sym | by concrete].

(** [2 1; 4 5] = [1 0; 2 1] [2 1; 0 3], packed; the right-hand side (3, 9) is overwritten by the solution (1, 1). *)
Example C75_lu_solve_case :
  let m : mem Qo := mem_of [:: num 2; num 1; num 2; num 3; num 3; num 9] in
  let A : mat Qo := row_major 0 2 2 in let X : mat Qo := row_major 4 2 1 in
  succeeds (bind (triangular_matrix_matrix_left_solve I32 A Lower ImplicitUnit X X)
    (fun _ => triangular_matrix_matrix_left_solve I32 A Upper Explicit X X)) m (fun _ m' =>
    holds_mx m' X (const_mx 1 : 'M[rat]_(2, 1)) /\ changes_only m m' (mcells X)).
Proof.
move=> m A X.
pose P := of_rows 2 2 [:: [:: num 1; num 0]; [:: num 2; num 1]]. pose Q := of_rows 2 2 [:: [:: num 2; num 1]; [:: num 0; num 3]].
pose N := of_rows 2 1 [:: [:: num 3]; [:: num 9]].
have TP : triangular Lower ImplicitUnit P by tri.
have TQ : triangular Upper Explicit Q by tri.
have UQ : Q \in unitmx.
  rewrite unitmxE (PfMx.triangular_det TQ) !big_ord_recl big_ord0 !mxE. by vm_compute.
have UP := PfMxOps.unit_triangular TP.
have S : const_mx 1 = invmx (P *m Q) *m N :> 'M_(2, 1).
  apply: (canRL (mulKmx _)); first by rewrite unitmx_mul UP.
  apply/matrixP => i j; revert i j; ords; ords; rewrite !(mxE, big_ord_recl, big_ord0); apply/eqP; by vm_compute.
rewrite S. apply: (C75_lu_solve (B := X)) => //; first [by cells | by concrete | idtac].
Qed.

(** M = [2 1; 4 5] is at 0, a 2x1 or 2x2 right-hand side behind it, the output last. *)
Definition M2 := of_rows 2 2 [:: [:: num 2; num 1]; [:: num 4; num 5]].
Definition S2 := of_rows 2 2 [:: [:: num 2; num 4]; [:: num 4; num 5]].
Definition L2 := of_rows 2 2 [:: [:: num 2; num 0]; [:: num 4; num 5]].
Definition N2 := of_rows 2 2 [:: [:: num 1; num 2]; [:: num 3; num 7]].
Definition v2 := of_rows 2 1 [:: [:: num 6]; [:: num 8]].
Definition w2 := of_rows 2 1 [:: [:: num 9]; [:: num 11]].
Definition mem0 : mem Qo := mem_of [:: num 2; num 1; num 4; num 5; num 1; num 2; num 3; num 7; num 6; num 8; num 9; num 11; num 0; num 0; num 0; num 0].
Definition vA : mat Qo := row_major 0 2 2.
Definition vN : mat Qo := row_major 4 2 2.
Definition vv : vec Qo := vec_at 8 2.
Definition vw : vec Qo := vec_at 10 2.
Definition vy : vec Qo := vec_at 12 2.
Definition vC : mat Qo := row_major 12 2 2.
Lemma L2_unit : L2 \in unitmx.
Proof.
have T : triangular Lower Explicit L2 by tri.
rewrite unitmxE (PfMx.triangular_det T) !(mxE, big_ord_recl, big_ord0). by vm_compute.
Qed.

Example C75_gemv_case : succeeds (matrix_vector_product vA vv vy) mem0 (fun _ m' => holds_cv m' vy (M2 *m v2) /\ changes_only mem0 m' (vcells vy)).
Proof. apply: C75_gemv; side. Qed.
Example C75_gemv_updating_case : succeeds (matrix_vector_product_upd vA vv vw vw) mem0 (fun _ m' => holds_cv m' vw (w2 + M2 *m v2) /\ changes_only mem0 m' (vcells vw)).
Proof. apply: C75_gemv_updating; side. Qed.
Example C75_symv_case : succeeds (symmetric_matrix_vector_product vA Lower vv vy) mem0 (fun _ m' => holds_cv m' vy (S2 *m v2) /\ changes_only mem0 m' (vcells vy)).
Proof. apply: C75_symv; side. Qed.
Example C75_trmv_case : succeeds (triangular_matrix_vector_product vA Lower Explicit vv vy) mem0 (fun _ m' => holds_cv m' vy (L2 *m v2) /\ changes_only mem0 m' (vcells vy)).
Proof. apply: C75_trmv; side. Qed.
Example C75_trmv_inplace_case : succeeds (triangular_matrix_vector_product_inplace vA Lower Explicit vv) mem0 (fun _ m' => holds_cv m' vv (L2 *m v2) /\ changes_only mem0 m' (vcells vv)).
Proof. apply: C75_trmv_inplace; side. Qed.
Example C75_ger_case : succeeds (matrix_rank_1_update vv vw vA) mem0 (fun _ m' => holds_mx m' vA (M2 + v2 *m w2^T) /\ changes_only mem0 m' (mcells vA)).
Proof. apply: C75_ger; side. Qed.
Example C75_gemm_case : succeeds (matrix_product vA vN vC) mem0 (fun _ m' => holds_mx m' vC (M2 *m N2) /\ changes_only mem0 m' (mcells vC)).
Proof. apply: C75_gemm; side. Qed.
Example C75_gemm_updating_case : succeeds (matrix_product_upd vA vN vN vC) mem0 (fun _ m' => holds_mx m' vC (N2 + M2 *m N2) /\ changes_only mem0 m' (mcells vC)).
Proof. apply: C75_gemm_updating; first [by left; concrete | side]. Qed.
Example C75_symm_left_case : succeeds (symmetric_matrix_product_left vA Lower vN vC) mem0 (fun _ m' => holds_mx m' vC (S2 *m N2) /\ changes_only mem0 m' (mcells vC)).
Proof. apply: C75_symm_left; side. Qed.
Example C75_symm_right_case : succeeds (symmetric_matrix_product_right vN vA Lower vC) mem0 (fun _ m' => holds_mx m' vC (N2 *m S2) /\ changes_only mem0 m' (mcells vC)).
Proof. apply: C75_symm_right; side. Qed.
Example C75_trmm_left_inplace_case : succeeds (triangular_matrix_left_product vA Lower Explicit vN) mem0 (fun _ m' => holds_mx m' vN (L2 *m N2) /\ changes_only mem0 m' (mcells vN)).
Proof. apply: C75_trmm_left_inplace; side. Qed.
Example C75_trmm_right_inplace_case : succeeds (triangular_matrix_right_product vA Lower Explicit vN) mem0 (fun _ m' => holds_mx m' vN (N2 *m L2) /\ changes_only mem0 m' (mcells vN)).
Proof. apply: C75_trmm_right_inplace; side. Qed.
Example C75_syrk_case : succeeds (symmetric_matrix_rank_k_update vN vA Lower) mem0 (fun _ m' =>
  holds_mx_on m' vA (in_tri Lower) (S2 + N2 *m N2^T) /\ changes_only mem0 m' (mcells_on vA (in_tri Lower))).
Proof. apply: C75_syrk; side. Qed.
Example C75_syr2k_case : succeeds (symmetric_matrix_rank_2k_update vN vA vC Lower) mem0 (fun _ m' =>
  holds_mx_on m' vC (in_tri Lower) (0 + N2 *m M2^T + M2 *m N2^T) /\ changes_only mem0 m' (mcells_on vC (in_tri Lower))).
Proof. apply: C75_syr2k; side. Qed.
Example C75_trsv_case : succeeds (triangular_matrix_vector_solve I32 vA Lower Explicit vv vy) mem0 (fun _ m' => holds_cv m' vy (invmx L2 *m v2) /\ changes_only mem0 m' (vcells vy)).
Proof. apply: C75_trsv; first [exact: L2_unit | by left; concrete | side]. Qed.
Example C75_trsm_left_case : succeeds (triangular_matrix_matrix_left_solve I32 vA Lower Explicit vN vC) mem0 (fun _ m' => holds_mx m' vC (invmx L2 *m N2) /\ changes_only mem0 m' (mcells vC)).
Proof. apply: C75_trsm_left; first [exact: L2_unit | by left; concrete | side]. Qed.
Example C75_trsm_right_case : succeeds (triangular_matrix_matrix_right_solve I32 vA Lower Explicit vN vC) mem0 (fun _ m' => holds_mx m' vC (N2 *m invmx L2) /\ changes_only mem0 m' (mcells vC)).
Proof. apply: C75_trsm_right; first [exact: L2_unit | by left; concrete | side]. Qed.
Example C75_transposed_case : holds_mx_on mem0 (Mat 0 2 2 LLeft ADefault) (fun j i => in_tri Lower i j) (L2^T).
Proof. apply: (@C75_transposed _ false mem0 vA _ (in_tri Lower)); side. Qed.
Example C75_cholesky_solve_case :
  succeeds (bind (triangular_matrix_matrix_left_solve I32 vA Lower Explicit vN vC)
    (fun _ => triangular_matrix_matrix_left_solve I32 (Mat 0 2 2 LLeft ADefault) Upper Explicit vC vC)) mem0 (fun _ m' =>
    holds_mx m' vC (invmx (L2 *m L2^T) *m N2) /\ changes_only mem0 m' (mcells vC)).
Proof. apply: (@C75_cholesky_solve _ false); first [exact: L2_unit | by left; concrete | side]. Qed.

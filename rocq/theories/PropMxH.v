(** C100: over every commutative ring with conjugation the operations that conjugate are those of matrix algebra with the
    conjugate transpose M^H (adjoint): products with Hermitian matrices, Hermitian updates, x^H y, and solves with
    conjugate_transposed views.  The operations of C75 are repeated for such rings as far as compositions need them. *)
From mathcomp Require Import all_ssreflect all_algebra.
From mathcomp Require Import complex algC.
From Coq Require Import ZArith.
From Verif Require Import Mem Scalar View Spec SpecMx SpecMxH Idx Blas1 Blas2 Blas3 PfMxH PfMxHOps MxHInst Inst.
Set Implicit Arguments.
Local Open Scope ring_scope.
Import GRing.Theory Num.Theory ComplexField.

(** conjugated(x) holds the conjugate of v *)
Theorem C100_conjugated_vector : forall (R : comUnitRingType) (K : conjugation R) fix_nc (m : mem (conj_ring_ops K)) x n (v : 'cV[R]_n),
  has_cv K m x v -> has_cv K m (conjugated_v fix_nc false x) (map_mx K v).
Proof. exact (@conjugated_cv). Qed.
Print Assumptions C100_conjugated_vector.

(** conjugated(A) holds the conjugate of M *)
Theorem C100_conjugated_matrix : forall (R : comUnitRingType) (K : conjugation R) fix_nc (m : mem (conj_ring_ops K)) A P p q (M : 'M[R]_(p, q)),
  has_mx_on K m A P M -> has_mx_on K m (conjugated_m fix_nc false A) P (map_mx K M).
Proof. exact (@conjugated_mx). Qed.
Print Assumptions C100_conjugated_matrix.

(** conjugate_transposed(A) holds M^H *)
Theorem C100_conjugate_transposed : forall (R : comUnitRingType) (K : conjugation R) fixp fix_nc (m : mem (conj_ring_ops K)) A Ah (S : nat -> nat -> Prop) p q (M : 'M[R]_(p, q)),
  conjugate_transposed fixp fix_nc false A = Some Ah -> layout_ok (mlay A) (ext0 A) (ext1 A) ->
  has_mx_on K m A S M -> has_mx_on K m Ah (fun j i => S i j) (adjoint K M).
Proof. exact (@conjugate_transposed_mx). Qed.
Print Assumptions C100_conjugate_transposed.

(** dotc is init + v^H w *)
Theorem C100_dotc : forall (R : comUnitRingType) (K : conjugation R) fix_nc (m : mem (conj_ring_ops K)) x y n (v w : 'cV[R]_n) (init : R),
  has_cv K m x v -> has_cv K m y w ->
  succeeds (dotc fix_nc false x y (init : conj_ring_ops K)) m (fun r m' => r = init + (adjoint K v *m w) 0 0 /\ m' = m).
Proof. exact (@dotc_mx). Qed.
Print Assumptions C100_dotc.

(** y = M v *)
Theorem C100_gemv : forall (R : comUnitRingType) (K : conjugation R) (m : mem (conj_ring_ops K)) A x y p q (M : 'M[R]_(p, q)) (v : 'cV_q),
  has_mx K m A M -> has_cv K m x v -> vext y = p -> vwritable y -> allocated m (vcells y) ->
  disjoint (mcells A) (vcells y) -> disjoint (vcells x) (vcells y) ->
  succeeds (matrix_vector_product A x y) m (fun _ m' => has_cv K m' y (M *m v) /\ changes_only m m' (vcells y)).
Proof. exact (@gemv_mx). Qed.
Print Assumptions C100_gemv.

(** z = w + M v *)
Theorem C100_gemv_updating : forall (R : comUnitRingType) (K : conjugation R) (m : mem (conj_ring_ops K)) A x y z p q (M : 'M[R]_(p, q)) (v : 'cV_q) (w : 'cV_p),
  has_mx K m A M -> has_cv K m x v -> has_cv K m y w -> vext z = p -> vwritable z -> allocated m (vcells z) ->
  disjoint (mcells A) (vcells z) -> disjoint (vcells x) (vcells z) -> disjoint_or_aligned_v y z ->
  succeeds (matrix_vector_product_upd A x y z) m (fun _ m' => has_cv K m' z (w + M *m v) /\ changes_only m m' (vcells z)).
Proof. exact (@gemv_upd_mx). Qed.
Print Assumptions C100_gemv_updating.

(** C = M N *)
Theorem C100_gemm : forall (R : comUnitRingType) (K : conjugation R) (m : mem (conj_ring_ops K)) A B C p q r (M : 'M[R]_(p, q)) (N : 'M[R]_(q, r)),
  has_mx K m A M -> has_mx K m B N -> ext0 C = p -> ext1 C = r -> mwritable C -> allocated m (mcells C) ->
  disjoint (mcells A) (mcells C) -> disjoint (mcells B) (mcells C) ->
  succeeds (matrix_product A B C) m (fun _ m' => has_mx K m' C (M *m N) /\ changes_only m m' (mcells C)).
Proof. exact (@gemm_mx). Qed.
Print Assumptions C100_gemm.

(** C = K0 + M N *)
Theorem C100_gemm_updating : forall (R : comUnitRingType) (K : conjugation R) (m : mem (conj_ring_ops K)) A B E C p q r (M : 'M[R]_(p, q)) (N : 'M[R]_(q, r)) (K0 : 'M[R]_(p, r)),
  has_mx K m A M -> has_mx K m B N -> has_mx K m E K0 -> ext0 C = p -> ext1 C = r -> mwritable C -> allocated m (mcells C) ->
  disjoint (mcells A) (mcells C) -> disjoint (mcells B) (mcells C) -> disjoint_or_aligned_m E C ->
  succeeds (matrix_product_upd A B E C) m (fun _ m' => has_mx K m' C (K0 + M *m N) /\ changes_only m m' (mcells C)).
Proof. exact (@gemm_upd_mx). Qed.
Print Assumptions C100_gemm_updating.

(** A + v w^H *)
Theorem C100_gerc : forall (R : comUnitRingType) (K : conjugation R) fix_nc (m : mem (conj_ring_ops K)) x y A p q (M : 'M[R]_(p, q)) (v : 'cV_p) (w : 'cV_q),
  has_mx K m A M -> has_cv K m x v -> has_cv K m y w -> mwritable A ->
  disjoint (vcells x) (mcells A) -> disjoint (vcells y) (mcells A) ->
  succeeds (matrix_rank_1_update_c fix_nc false x y A) m (fun _ m' => has_mx K m' A (M + v *m adjoint K w) /\ changes_only m m' (mcells A)).
Proof. exact (@gerc_mx). Qed.
Print Assumptions C100_gerc.

(** M Hermitian, one triangle of it stored: y = M v *)
Theorem C100_hemv : forall (R : comUnitRingType) (K : conjugation R) (m : mem (conj_ring_ops K)) A t x y n (M : 'M[R]_n) (v : 'cV_n),
  hermitian_mx K M ->
  has_mx_on K m A (in_tri t) M -> has_cv K m x v -> vext y = n -> vwritable y -> allocated m (vcells y) ->
  disjoint (mcells_on A (in_tri t)) (vcells y) -> disjoint (vcells x) (vcells y) ->
  succeeds (hermitian_matrix_vector_product A t x y) m (fun _ m' => has_cv K m' y (M *m v) /\ changes_only m m' (vcells y)).
Proof. exact (@hemv_mx). Qed.
Print Assumptions C100_hemv.

(** z = w + M v *)
Theorem C100_hemv_updating : forall (R : comUnitRingType) (K : conjugation R) (m : mem (conj_ring_ops K)) A t x y z n (M : 'M[R]_n) (v w : 'cV_n),
  hermitian_mx K M ->
  has_mx_on K m A (in_tri t) M -> has_cv K m x v -> has_cv K m y w -> vext z = n -> vwritable z -> allocated m (vcells z) ->
  disjoint (mcells_on A (in_tri t)) (vcells z) -> disjoint (vcells x) (vcells z) -> disjoint_or_aligned_v y z ->
  succeeds (hermitian_matrix_vector_product_upd A t x y z) m (fun _ m' => has_cv K m' z (w + M *m v) /\ changes_only m m' (vcells z)).
Proof. exact (@hemv_upd_mx). Qed.
Print Assumptions C100_hemv_updating.

(** C = M N, M Hermitian *)
Theorem C100_hemm_left : forall (R : comUnitRingType) (K : conjugation R) (m : mem (conj_ring_ops K)) A t B C n r (M : 'M[R]_n) (N : 'M[R]_(n, r)),
  hermitian_mx K M ->
  has_mx_on K m A (in_tri t) M -> has_mx K m B N -> ext0 C = n -> ext1 C = r -> mwritable C -> allocated m (mcells C) ->
  disjoint (mcells_on A (in_tri t)) (mcells C) -> disjoint (mcells B) (mcells C) ->
  succeeds (hermitian_matrix_product_left A t B C) m (fun _ m' => has_mx K m' C (M *m N) /\ changes_only m m' (mcells C)).
Proof. exact (@hemm_left_mx). Qed.
Print Assumptions C100_hemm_left.

(** C = N M, M Hermitian *)
Theorem C100_hemm_right : forall (R : comUnitRingType) (K : conjugation R) (m : mem (conj_ring_ops K)) A t B C n r (M : 'M[R]_n) (N : 'M[R]_(r, n)),
  hermitian_mx K M ->
  has_mx_on K m A (in_tri t) M -> has_mx K m B N -> ext0 C = r -> ext1 C = n -> mwritable C -> allocated m (mcells C) ->
  disjoint (mcells_on A (in_tri t)) (mcells C) -> disjoint (mcells B) (mcells C) ->
  succeeds (hermitian_matrix_product_right B A t C) m (fun _ m' => has_mx K m' C (N *m M) /\ changes_only m m' (mcells C)).
Proof. exact (@hemm_right_mx). Qed.
Print Assumptions C100_hemm_right.

(** M + alpha v v^H in the triangle *)
Theorem C100_her_alpha : forall (R : comUnitRingType) (K : conjugation R) (m : mem (conj_ring_ops K)) (alpha : R) x A t n (M : 'M[R]_n) (v : 'cV_n),
  hermitian_mx K M ->
  has_mx_on K m A (in_tri t) M -> has_cv K m x v -> mwritable_on A (in_tri t) -> disjoint (vcells x) (mcells_on A (in_tri t)) ->
  succeeds (hermitian_matrix_rank_1_update_alpha (alpha : conj_ring_ops K) x A t) m (fun _ m' =>
    has_mx_on K m' A (in_tri t) (M + alpha *: (v *m adjoint K v)) /\ changes_only m m' (mcells_on A (in_tri t))).
Proof. exact (@her_alpha_mx). Qed.
Print Assumptions C100_her_alpha.

(** M + v v^H in the triangle *)
Theorem C100_her : forall (R : comUnitRingType) (K : conjugation R) (m : mem (conj_ring_ops K)) x A t n (M : 'M[R]_n) (v : 'cV_n),
  hermitian_mx K M ->
  has_mx_on K m A (in_tri t) M -> has_cv K m x v -> mwritable_on A (in_tri t) -> disjoint (vcells x) (mcells_on A (in_tri t)) ->
  succeeds (hermitian_matrix_rank_1_update x A t) m (fun _ m' =>
    has_mx_on K m' A (in_tri t) (M + v *m adjoint K v) /\ changes_only m m' (mcells_on A (in_tri t))).
Proof. exact (@her_mx). Qed.
Print Assumptions C100_her.

(** M + v w^H + w v^H in the triangle *)
Theorem C100_her2 : forall (R : comUnitRingType) (K : conjugation R) (m : mem (conj_ring_ops K)) x y A t n (M : 'M[R]_n) (v w : 'cV_n),
  hermitian_mx K M ->
  has_mx_on K m A (in_tri t) M -> has_cv K m x v -> has_cv K m y w -> mwritable_on A (in_tri t) ->
  disjoint (vcells x) (mcells_on A (in_tri t)) -> disjoint (vcells y) (mcells_on A (in_tri t)) ->
  succeeds (hermitian_matrix_rank_2_update x y A t) m (fun _ m' =>
    has_mx_on K m' A (in_tri t) (M + v *m adjoint K w + w *m adjoint K v) /\ changes_only m m' (mcells_on A (in_tri t))).
Proof. exact (@her2_mx). Qed.
Print Assumptions C100_her2.

(** N + alpha M M^H in the triangle *)
Theorem C100_herk_alpha : forall (R : comUnitRingType) (K : conjugation R) (m : mem (conj_ring_ops K)) (alpha : R) A C t n k (M : 'M[R]_(n, k)) (N : 'M[R]_n),
  hermitian_mx K N ->
  has_mx K m A M -> has_mx_on K m C (in_tri t) N -> mwritable_on C (in_tri t) -> disjoint (mcells A) (mcells_on C (in_tri t)) ->
  succeeds (hermitian_matrix_rank_k_update_alpha (alpha : conj_ring_ops K) A C t) m (fun _ m' =>
    has_mx_on K m' C (in_tri t) (N + alpha *: (M *m adjoint K M)) /\ changes_only m m' (mcells_on C (in_tri t))).
Proof. exact (@herk_alpha_mx). Qed.
Print Assumptions C100_herk_alpha.

(** N + M M^H in the triangle *)
Theorem C100_herk : forall (R : comUnitRingType) (K : conjugation R) (m : mem (conj_ring_ops K)) A C t n k (M : 'M[R]_(n, k)) (N : 'M[R]_n),
  hermitian_mx K N ->
  has_mx K m A M -> has_mx_on K m C (in_tri t) N -> mwritable_on C (in_tri t) -> disjoint (mcells A) (mcells_on C (in_tri t)) ->
  succeeds (hermitian_matrix_rank_k_update A C t) m (fun _ m' =>
    has_mx_on K m' C (in_tri t) (N + M *m adjoint K M) /\ changes_only m m' (mcells_on C (in_tri t))).
Proof. exact (@herk_mx). Qed.
Print Assumptions C100_herk.

(** N + M L^H + L M^H in the triangle *)
Theorem C100_her2k : forall (R : comUnitRingType) (K : conjugation R) (m : mem (conj_ring_ops K)) A B C t n k (M L : 'M[R]_(n, k)) (N : 'M[R]_n),
  hermitian_mx K N ->
  has_mx K m A M -> has_mx K m B L -> has_mx_on K m C (in_tri t) N -> mwritable_on C (in_tri t) ->
  disjoint (mcells A) (mcells_on C (in_tri t)) -> disjoint (mcells B) (mcells_on C (in_tri t)) ->
  succeeds (hermitian_matrix_rank_2k_update A B C t) m (fun _ m' =>
    has_mx_on K m' C (in_tri t) (N + M *m adjoint K L + L *m adjoint K M) /\ changes_only m m' (mcells_on C (in_tri t))).
Proof. exact (@her2k_mx). Qed.
Print Assumptions C100_her2k.

(** M triangular: y = M v *)
Theorem C100_trmv : forall (R : comUnitRingType) (K : conjugation R) (m : mem (conj_ring_ops K)) A t d x y n (M : 'M[R]_n) (v : 'cV_n),
  triangular t d M ->
  has_mx_on K m A (stored t d) M -> has_cv K m x v -> vext y = n -> vwritable y -> allocated m (vcells y) ->
  disjoint (mcells_on A (stored t d)) (vcells y) -> disjoint (vcells x) (vcells y) ->
  succeeds (triangular_matrix_vector_product A t d x y) m (fun _ m' => has_cv K m' y (M *m v) /\ changes_only m m' (vcells y)).
Proof. exact (@trmv_mx). Qed.
Print Assumptions C100_trmv.

(** the same, overwriting the vector *)
Theorem C100_trmv_inplace : forall (R : comUnitRingType) (K : conjugation R) (m : mem (conj_ring_ops K)) A t d y n (M : 'M[R]_n) (v : 'cV_n),
  triangular t d M ->
  has_mx_on K m A (stored t d) M -> has_cv K m y v -> vwritable y -> disjoint (mcells_on A (stored t d)) (vcells y) ->
  succeeds (triangular_matrix_vector_product_inplace A t d y) m (fun _ m' => has_cv K m' y (M *m v) /\ changes_only m m' (vcells y)).
Proof. exact (@trmv_inplace_mx). Qed.
Print Assumptions C100_trmv_inplace.

(** C = M C *)
Theorem C100_trmm_left_inplace : forall (R : comUnitRingType) (K : conjugation R) (m : mem (conj_ring_ops K)) A t d C n r (M : 'M[R]_n) (N : 'M[R]_(n, r)),
  triangular t d M ->
  has_mx_on K m A (stored t d) M -> has_mx K m C N -> mwritable C -> disjoint (mcells_on A (stored t d)) (mcells C) ->
  succeeds (triangular_matrix_left_product A t d C) m (fun _ m' => has_mx K m' C (M *m N) /\ changes_only m m' (mcells C)).
Proof. exact (@trmm_left_inplace_mx). Qed.
Print Assumptions C100_trmm_left_inplace.

(** C = C M *)
Theorem C100_trmm_right_inplace : forall (R : comUnitRingType) (K : conjugation R) (m : mem (conj_ring_ops K)) A t d C n r (M : 'M[R]_n) (N : 'M[R]_(r, n)),
  triangular t d M ->
  has_mx_on K m A (stored t d) M -> has_mx K m C N -> mwritable C -> disjoint (mcells_on A (stored t d)) (mcells C) ->
  succeeds (triangular_matrix_right_product A t d C) m (fun _ m' => has_mx K m' C (N *m M) /\ changes_only m m' (mcells C)).
Proof. exact (@trmm_right_inplace_mx). Qed.
Print Assumptions C100_trmm_right_inplace.

(** x = M^-1 v *)
Theorem C100_trsv : forall (R : comUnitRingType) (K : conjugation R) ty (m : mem (conj_ring_ops K)) A t d B X n (M : 'M[R]_n) (v : 'cV_n),
  triangular t d M -> M \in unitmx ->
  fits ty n -> (n = 0%N -> t = Upper -> ty <> U32) ->
  has_mx_on K m A (stored t d) M -> has_cv K m B v -> vext X = n -> vwritable X -> allocated m (vcells X) ->
  disjoint (mcells_on A (stored t d)) (vcells X) -> disjoint_or_aligned_v B X ->
  succeeds (triangular_matrix_vector_solve ty A t d B X) m (fun _ m' =>
    has_cv K m' X (invmx M *m v) /\ changes_only m m' (vcells X)).
Proof. exact (@trsv_mx). Qed.
Print Assumptions C100_trsv.

(** X = M^-1 N *)
Theorem C100_trsm_left : forall (R : comUnitRingType) (K : conjugation R) ty (m : mem (conj_ring_ops K)) A t d B X n r (M : 'M[R]_n) (N : 'M[R]_(n, r)),
  triangular t d M -> M \in unitmx ->
  fits ty n -> (n = 0%N -> t = Upper -> ty <> U32) ->
  has_mx_on K m A (stored t d) M -> has_mx K m B N -> ext0 X = n -> ext1 X = r -> mwritable X -> allocated m (mcells X) ->
  disjoint (mcells_on A (stored t d)) (mcells X) -> disjoint_or_aligned_m B X ->
  succeeds (triangular_matrix_matrix_left_solve ty A t d B X) m (fun _ m' =>
    has_mx K m' X (invmx M *m N) /\ changes_only m m' (mcells X)).
Proof. exact (@trsm_left_mx). Qed.
Print Assumptions C100_trsm_left.

(** X = N M^-1 *)
Theorem C100_trsm_right : forall (R : comUnitRingType) (K : conjugation R) ty (m : mem (conj_ring_ops K)) A t d B X n r (M : 'M[R]_n) (N : 'M[R]_(r, n)),
  triangular t d M -> M \in unitmx ->
  (t = Lower -> fits (make_signed ty) n) ->
  has_mx_on K m A (stored t d) M -> has_mx K m B N -> ext0 X = r -> ext1 X = n -> mwritable X -> allocated m (mcells X) ->
  disjoint (mcells_on A (stored t d)) (mcells X) -> disjoint_or_aligned_m B X ->
  succeeds (triangular_matrix_matrix_right_solve ty A t d B X) m (fun _ m' =>
    has_mx K m' X (N *m invmx M) /\ changes_only m m' (mcells X)).
Proof. exact (@trsm_right_mx). Qed.
Print Assumptions C100_trsm_right.

(** Two solves with L and its conjugate_transposed view: X = (L L^H)^-1 N *)
Theorem C100_cholesky_solve : forall (R : comUnitRingType) (K : conjugation R) fixp fix_nc ty (m : mem (conj_ring_ops K)) A Ah B X n r (P : 'M[R]_n) (N : 'M[R]_(n, r)),
  triangular Lower Explicit P -> P \in unitmx ->
  fits ty n -> (n = 0%N -> ty <> U32) ->
  conjugate_transposed fixp fix_nc false A = Some Ah -> layout_ok (mlay A) (ext0 A) (ext1 A) ->
  has_mx_on K m A (stored Lower Explicit) P ->
  has_mx K m B N -> ext0 X = n -> ext1 X = r -> mwritable X -> allocated m (mcells X) ->
  disjoint (mcells A) (mcells X) -> disjoint_or_aligned_m B X ->
  succeeds (bind (triangular_matrix_matrix_left_solve ty A Lower Explicit B X)
    (fun _ => triangular_matrix_matrix_left_solve ty Ah Upper Explicit X X)) m (fun _ m' =>
    has_mx K m' X (invmx (P *m adjoint K P) *m N) /\ changes_only m m' (mcells X)).
Proof. exact (@cholesky_solve). Qed.
Print Assumptions C100_cholesky_solve.

(** An update followed by a product with the result: y = (N + M M^H) v *)
Theorem C100_herk_hemv : forall (R : comUnitRingType) (K : conjugation R) (m : mem (conj_ring_ops K)) A C t x y n k (M : 'M[R]_(n, k)) (N : 'M[R]_n) (v : 'cV_n),
  hermitian_mx K N ->
  has_mx K m A M -> has_mx_on K m C (in_tri t) N -> has_cv K m x v -> mwritable_on C (in_tri t) ->
  vext y = n -> vwritable y -> allocated m (vcells y) ->
  disjoint (mcells A) (mcells_on C (in_tri t)) -> disjoint (vcells x) (mcells_on C (in_tri t)) ->
  disjoint (mcells_on C (in_tri t)) (vcells y) -> disjoint (vcells x) (vcells y) ->
  succeeds (bind (hermitian_matrix_rank_k_update A C t) (fun _ => hermitian_matrix_vector_product C t x y)) m (fun _ m' =>
    has_cv K m' y (N *m v + M *m (adjoint K M *m v)) /\
    changes_only m m' (fun a => mcells_on C (in_tri t) a \/ vcells y a)).
Proof. exact (@herk_hemv). Qed.
Print Assumptions C100_herk_hemv.

(** dotc(x, x) is the squared length: nonnegative, and zero only for the zero vector. *)
Theorem C100_dotc_square : forall (C : numClosedFieldType) fix_nc (m : mem (conj_ring_ops (closed_conj C))) x n (v : 'cV[C]_n),
  has_cv (closed_conj C) m x v ->
  succeeds (dotc fix_nc false x x (0 : C)) m (fun r m' =>
    r = \sum_i `|v i 0| ^+ 2 /\ 0 <= (r : C) /\ (r = 0 :> C <-> v = 0) /\ m' = m).
Proof. exact dotc_square. Qed.
Print Assumptions C100_dotc_square.

(** * Concrete cases: Gaussian rationals *)
Definition of_rows p q (l : seq (seq gq)) : 'M[gq]_(p, q) := \matrix_(i, j) nth 0 (nth [::] l i) j.
Notation Go := (conj_ring_ops gauss_conj).
Notation G := gauss_conj.
Ltac ords := match goal with
  | |- forall _ : 'I_ _, _ => let H := fresh in intros [[|[|[|?]]] H]; try (exfalso; clear -H; discriminate H)
  | |- _ => idtac end.
Ltac entry := first [ by rewrite !mxE | by rewrite !mxE /=; apply/eqP; vm_compute ].
Ltac cells := split; [reflexivity|split; [reflexivity|]]; ords; ords; let H := fresh in intro H; unfold stored, in_tri in H; simpl in H;
  first [ exfalso; solve [ Lia.lia | apply H; reflexivity | destruct H as [_ H]; apply H; reflexivity ] | eexists; split; [reflexivity | entry] ].
Ltac tri := split; [ords; ords; first [let H := fresh in intro H; exfalso; apply H; simpl; Lia.lia | by move=> _; entry] | first [by [] | by move=> _; ords; entry]].
Ltac vcells1 := split; [reflexivity|]; ords; (eexists; split; [reflexivity | entry]).
Ltac herm := unfold hermitian_mx; apply/matrixP; let i := fresh in let j := fresh in intros i j; revert i j; ords; ords; entry.
Ltac side := first [by [] | by cells | by vcells1 | by tri | by herm | by concrete].

(** M = [2 1; 3-4i 5] at 0, N = [1+i 2; 3 i] at 4, vectors (6, 8i) and (9, 1-i) at 8 and 10, the output at 12. *)
Definition M2 := of_rows 2 2 [:: [:: z 2 0; z 1 0]; [:: z 3 (-4); z 5 0]].
Definition H2 := of_rows 2 2 [:: [:: z 2 0; z 3 4]; [:: z 3 (-4); z 5 0]].
Definition L2 := of_rows 2 2 [:: [:: z 2 0; z 0 0]; [:: z 3 (-4); z 5 0]].
Definition N2 := of_rows 2 2 [:: [:: z 1 1; z 2 0]; [:: z 3 0; z 0 1]].
Definition v2 := of_rows 2 1 [:: [:: z 6 0]; [:: z 0 8]].
Definition w2 := of_rows 2 1 [:: [:: z 9 0]; [:: z 1 (-1)]].
Definition mem0 : mem Go := mem_of ([:: z 2 0; z 1 0; z 3 (-4); z 5 0; z 1 1; z 2 0; z 3 0; z 0 1; z 6 0; z 0 8; z 9 0; z 1 (-1); z 0 0; z 0 0; z 0 0; z 0 0] : list Go).
Definition vA : mat Go := row_major 0 2 2.
Definition vN : mat Go := row_major 4 2 2.
Definition vv : vec Go := vec_at 8 2.
Definition vw : vec Go := vec_at 10 2.
Definition vy : vec Go := vec_at 12 2.
Definition vC : mat Go := row_major 12 2 2.
Lemma L2_unit : L2 \in unitmx.
Proof.
have T : triangular Lower Explicit L2 by tri.
rewrite unitmxE (PfMxH.triangular_det T) !(mxE, big_ord_recl, big_ord0). by vm_compute.
Qed.

Example C100_conjugate_transposed_case : has_mx_on G mem0 (Mat 4 2 2 LLeft (AConj ADefault)) (fun j i => in_tri Lower i j) (adjoint G N2).
Proof. apply: (@C100_conjugate_transposed _ _ false false mem0 vN _ (in_tri Lower)); side. Qed.
Example C100_dotc_case : succeeds (dotc false false vv vw (z 1 0 : Go)) mem0 (fun r m' => r = z 47 (-8) /\ m' = mem0).
Proof.
have H := C100_dotc (K := G) false (m := mem0) (x := vv) (y := vw) (v := v2) (w := w2) (z 1 0) ltac:(vcells1) ltac:(vcells1).
move: H => [r [m' [Hr [Er Em]]]]. exists r, m'. split=> //. split=> //. rewrite Er !(mxE, big_ord_recl, big_ord0). apply/eqP. by vm_compute.
Qed.
Example C100_hemv_case : succeeds (hermitian_matrix_vector_product vA Lower vv vy) mem0 (fun _ m' => has_cv G m' vy (H2 *m v2) /\ changes_only mem0 m' (vcells vy)).
Proof. apply: C100_hemv; side. Qed.
Example C100_hemv_updating_case : succeeds (hermitian_matrix_vector_product_upd vA Lower vv vw vw) mem0 (fun _ m' => has_cv G m' vw (w2 + H2 *m v2) /\ changes_only mem0 m' (vcells vw)).
Proof. apply: C100_hemv_updating; side. Qed.
Example C100_hemm_left_case : succeeds (hermitian_matrix_product_left vA Lower vN vC) mem0 (fun _ m' => has_mx G m' vC (H2 *m N2) /\ changes_only mem0 m' (mcells vC)).
Proof. apply: C100_hemm_left; side. Qed.
Example C100_hemm_right_case : succeeds (hermitian_matrix_product_right vN vA Lower vC) mem0 (fun _ m' => has_mx G m' vC (N2 *m H2) /\ changes_only mem0 m' (mcells vC)).
Proof. apply: C100_hemm_right; side. Qed.
Example C100_gerc_case : succeeds (matrix_rank_1_update_c false false vv vw vA) mem0 (fun _ m' => has_mx G m' vA (M2 + v2 *m adjoint G w2) /\ changes_only mem0 m' (mcells vA)).
Proof. apply: C100_gerc; side. Qed.
Example C100_her_case : succeeds (hermitian_matrix_rank_1_update vv vA Lower) mem0 (fun _ m' =>
  has_mx_on G m' vA (in_tri Lower) (H2 + v2 *m adjoint G v2) /\ changes_only mem0 m' (mcells_on vA (in_tri Lower))).
Proof. apply: C100_her; side. Qed.
Example C100_her_alpha_case : succeeds (hermitian_matrix_rank_1_update_alpha (z 0 1 : Go) vv vA Lower) mem0 (fun _ m' =>
  has_mx_on G m' vA (in_tri Lower) (H2 + z 0 1 *: (v2 *m adjoint G v2)) /\ changes_only mem0 m' (mcells_on vA (in_tri Lower))).
Proof. apply: C100_her_alpha; side. Qed.
Example C100_her2_case : succeeds (hermitian_matrix_rank_2_update vv vw vA Lower) mem0 (fun _ m' =>
  has_mx_on G m' vA (in_tri Lower) (H2 + v2 *m adjoint G w2 + w2 *m adjoint G v2) /\ changes_only mem0 m' (mcells_on vA (in_tri Lower))).
Proof. apply: C100_her2; side. Qed.
Example C100_herk_case : succeeds (hermitian_matrix_rank_k_update vN vA Lower) mem0 (fun _ m' =>
  has_mx_on G m' vA (in_tri Lower) (H2 + N2 *m adjoint G N2) /\ changes_only mem0 m' (mcells_on vA (in_tri Lower))).
Proof. apply: C100_herk; side. Qed.
Example C100_herk_alpha_case : succeeds (hermitian_matrix_rank_k_update_alpha (z 3 0 : Go) vN vA Lower) mem0 (fun _ m' =>
  has_mx_on G m' vA (in_tri Lower) (H2 + z 3 0 *: (N2 *m adjoint G N2)) /\ changes_only mem0 m' (mcells_on vA (in_tri Lower))).
Proof. apply: C100_herk_alpha; side. Qed.
Example C100_her2k_case : succeeds (hermitian_matrix_rank_2k_update vN vC vA Lower) mem0 (fun _ m' =>
  has_mx_on G m' vA (in_tri Lower) (H2 + N2 *m adjoint G 0 + 0 *m adjoint G N2) /\ changes_only mem0 m' (mcells_on vA (in_tri Lower))).
Proof. apply: C100_her2k; side. Qed.
Example C100_herk_hemv_case :
  succeeds (bind (hermitian_matrix_rank_k_update vN vA Lower) (fun _ => hermitian_matrix_vector_product vA Lower vv vy)) mem0 (fun _ m' =>
    has_cv G m' vy (H2 *m v2 + N2 *m (adjoint G N2 *m v2)) /\
    changes_only mem0 m' (fun a => mcells_on vA (in_tri Lower) a \/ vcells vy a)).
Proof. apply: C100_herk_hemv; side. Qed.
(** [4 6+8i; 6-8i 50] = L L^H; conjugate_transposed of a row-major matrix is column-major. *)
Example C100_cholesky_solve_case :
  succeeds (bind (triangular_matrix_matrix_left_solve I32 vA Lower Explicit vN vC)
    (fun _ => triangular_matrix_matrix_left_solve I32 (Mat 0 2 2 LLeft (AConj ADefault)) Upper Explicit vC vC)) mem0 (fun _ m' =>
    has_mx G m' vC (invmx (L2 *m adjoint G L2) *m N2) /\ changes_only mem0 m' (mcells vC)).
Proof. apply: (@C100_cholesky_solve _ _ false false); first [exact: L2_unit | by left; concrete | side]. Qed.
Example C100_trmv_inplace_case : succeeds (triangular_matrix_vector_product_inplace vA Lower Explicit vv) mem0 (fun _ m' => has_cv G m' vv (L2 *m v2) /\ changes_only mem0 m' (vcells vv)).
Proof. apply: C100_trmv_inplace; side. Qed.
(** A^H x: the product with a conjugate_transposed view *)
Example C100_gemv_case : succeeds (matrix_vector_product (Mat 4 2 2 LLeft (AConj ADefault)) vv vy) mem0 (fun _ m' => has_cv G m' vy (adjoint G N2 *m v2) /\ changes_only mem0 m' (vcells vy)).
Proof. apply: C100_gemv; first [apply: (@C100_conjugate_transposed _ _ false false mem0 vN _ all2); side | side]. Qed.
Example C100_gemm_case : succeeds (matrix_product (Mat 4 2 2 LLeft (AConj ADefault)) vA vC) mem0 (fun _ m' => has_mx G m' vC (adjoint G N2 *m M2) /\ changes_only mem0 m' (mcells vC)).
Proof. apply: C100_gemm; first [apply: (@C100_conjugate_transposed _ _ false false mem0 vN _ all2); side | side]. Qed.
Example C100_trsm_right_case : succeeds (triangular_matrix_matrix_right_solve I32 vA Lower Explicit vN vC) mem0 (fun _ m' => has_mx G m' vC (N2 *m invmx L2) /\ changes_only mem0 m' (mcells vC)).
Proof. apply: C100_trsm_right; first [exact: L2_unit | by left; concrete | side]. Qed.
Example C100_conjugated_vector_case : has_cv G mem0 (Vec 8 2 (fun i => i) (AConj ADefault)) (map_mx G v2).
Proof. apply: (@C100_conjugated_vector _ _ false mem0 vv); side. Qed.
Example C100_conjugated_matrix_case : has_mx_on G mem0 (Mat 4 2 2 LRight (AConj ADefault)) all2 (map_mx G N2).
Proof. apply: (@C100_conjugated_matrix _ _ false mem0 vN); side. Qed.
Example C100_gemv_updating_case : succeeds (matrix_vector_product_upd vA vv vw vw) mem0 (fun _ m' => has_cv G m' vw (w2 + M2 *m v2) /\ changes_only mem0 m' (vcells vw)).
Proof. apply: C100_gemv_updating; side. Qed.
Example C100_gemm_updating_case : succeeds (matrix_product_upd vA vN vN vC) mem0 (fun _ m' => has_mx G m' vC (N2 + M2 *m N2) /\ changes_only mem0 m' (mcells vC)).
Proof. apply: C100_gemm_updating; first [by left; concrete | side]. Qed.
Example C100_trmv_case : succeeds (triangular_matrix_vector_product vA Lower Explicit vv vy) mem0 (fun _ m' => has_cv G m' vy (L2 *m v2) /\ changes_only mem0 m' (vcells vy)).
Proof. apply: C100_trmv; side. Qed.
Example C100_trmm_left_inplace_case : succeeds (triangular_matrix_left_product vA Lower Explicit vN) mem0 (fun _ m' => has_mx G m' vN (L2 *m N2) /\ changes_only mem0 m' (mcells vN)).
Proof. apply: C100_trmm_left_inplace; side. Qed.
Example C100_trmm_right_inplace_case : succeeds (triangular_matrix_right_product vA Lower Explicit vN) mem0 (fun _ m' => has_mx G m' vN (N2 *m L2) /\ changes_only mem0 m' (mcells vN)).
Proof. apply: C100_trmm_right_inplace; side. Qed.
Example C100_trsv_case : succeeds (triangular_matrix_vector_solve I32 vA Lower Explicit vv vy) mem0 (fun _ m' => has_cv G m' vy (invmx L2 *m v2) /\ changes_only mem0 m' (vcells vy)).
Proof. apply: C100_trsv; first [exact: L2_unit | by left; concrete | side]. Qed.
Example C100_trsm_left_case : succeeds (triangular_matrix_matrix_left_solve I32 vA Lower Explicit vN vC) mem0 (fun _ m' => has_mx G m' vC (invmx L2 *m N2) /\ changes_only mem0 m' (mcells vC)).
Proof. apply: C100_trsm_left; first [exact: L2_unit | by left; concrete | side]. Qed.
(** The length of (1, i) over the algebraic numbers: 2, where dot would give 0. *)
Notation Aq := algCnumClosedField.
Notation Ao := (conj_ring_ops (closed_conj Aq)).
Example C100_dotc_square_case :
  let m : mem Ao := mem_of ([:: 1; 'i] : list Aq) in
  succeeds (dotc false false (vec_at 0 2 : vec Ao) (vec_at 0 2) (0 : Aq)) m (fun r m' => r = 2%:R :> Aq /\ m' = m).
Proof.
move=> m. pose v := \col_i nth 0 [:: 1; 'i] i : 'cV[Aq]_2.
have Hv : has_cv (closed_conj _) m (vec_at 0 2 : vec Ao) v by vcells1.
have [r [m' [Hr [Er [_ [_ Em]]]]]] := C100_dotc_square false Hv.
exists r, m'. split=> //. split=> //. by rewrite Er !(mxE, big_ord_recl, big_ord0) /= normr1 normCi expr1n addr0 -mulr2n.
Qed.

(** Properties C68 and C69: overloads of the Kokkos back end that delegate to KokkosBlas. *)
From Coq Require Import List Arith NArith ZArith Lia Bool QArith Qcanon.
From Verif Require Import Mem Scalar View Spec Idx Wp Sums Blas1 Blas3 KK SpecK KKBlas SpecKB PfKKBlas Inst.
Import ListNotations.
Local Open Scope nat_scope.
Local Open Scope sc_scope.

(** Side conditions on concrete data. *)
Ltac conc := first [ exact zring | exact (ring_add zring) | exact zcomm | exact qring | exact qdiv
  | match goal with |- plain_v _ => split; [reflexivity|intros; reflexivity] end
  | match goal with |- plain_m _ => split; [reflexivity|auto] end
  | match goal with |- fits _ _ => split; vm_compute; discriminate end
  | match goal with |- viewable_m _ => unfold viewable_m; simpl; auto end
  | match goal with |- disjoint_or_aligned_v _ _ => first [solve [right; unfold aligned_v, aligned_m; intros; reflexivity] | left] end
  | match goal with |- disjoint_or_aligned_m _ _ => first [solve [right; unfold aligned_v, aligned_m; intros; reflexivity] | left] end
  | idtac ]; try concrete.
Lemma kb_returns_mono : forall (O : ops) (R M : Type) (mag : O -> M) ltb (p : kval O R) m (Q Q' : R -> Prop),
  kb_returns mag ltb p m Q -> (forall r, Q r -> Q' r) -> kb_returns mag ltb p m Q'.
Proof. intros O R M mag ltb p m Q Q' H K. destruct p; simpl in *; [exact H|destruct H as (H1 & H2 & H3)|destruct H as (H2 & H3)]; auto. Qed.
Definition q0 : qops := Q2Qc 0. Definition q1 : qops := Q2Qc 1. Definition q2 : qops := Q2Qc 2. Definition q4 : qops := Q2Qc 4.
Lemma qcancel : forall a x y : Qc, a <> 0%Qc -> (a * x = a * y)%Qc -> x = y.
Proof. intros a x y Ha E. rewrite <- (Qcmult_1_l x), <- (Qcmult_1_l y), <- (Qcmult_inv_l _ Ha), <- !Qcmult_assoc, E. reflexivity. Qed.
(** A cell after the call *)
Ltac vcell H i := exact (cell_v (i := i) H eq_refl ltac:(simpl; lia)).
Ltac mcell H i j := exact (cell_m (i := i) (j := j) H eq_refl ltac:(simpl; lia) ltac:(simpl; lia)).
(** A cell that the call must not touch *)
Ltac other H := rewrite H; [reflexivity|]; let K := fresh in intros K;
  first [apply vcells_list in K|apply mcells_list in K]; vm_compute in K; intuition discriminate.

(** * C68 *)
(** [kb_ensures]: the overload compiles, does not throw, meets the requirements of every library call it makes,
    and whatever memory the calls leave within their documented guarantees satisfies the postcondition.
    [rev] (the reading of "L" and "U") plays no part here. *)
Theorem C68_kk_add_vectors : forall (O : ops) rev (m : mem O) x y z f g, ring_laws O -> plain_v x -> plain_v y -> plain_v z ->
  vext x = vext y -> vext y = vext z -> vec_holds m x f -> vec_holds m y g -> allocated m (vcells z) ->
  disjoint_or_aligned_v x z -> disjoint_or_aligned_v y z ->
  kb_ensures rev (kb_add_1 x y z) m (fun m' => vec_holds m' z (fun i => f i + g i) /\ changes_only m m' (vcells z)).
Proof. exact (@kb_add_1_ok). Qed.
Print Assumptions C68_kk_add_vectors.
(** x = [1;2], y = z = [10;20] (in place) *)
Example C68_add_vectors_case : kb_ensures false (kb_add_1 (vec_at 0 2) (vec_at 2 2) (vec_at 2 2)) (mem_of [1;2;10;20]%Z : mem zops)
  (fun m' => m' 2 = Some 11%Z /\ m' 3 = Some 22%Z /\ m' 0 = Some 1%Z).
Proof.
  eapply kb_mono; [apply C68_kk_add_vectors with (f := zv [1;2]%Z) (g := zv [10;20]%Z); conc|].
  intros m' [H1 H2]. split; [vcell H1 0|]. split; [vcell H1 1|]. other H2.
Qed.
Theorem C68_kk_add_matrices : forall (O : ops) rev (m : mem O) x y z f g, ring_laws O -> plain_m x -> plain_m y -> plain_m z ->
  ext0 x = ext0 y -> ext1 x = ext1 y -> ext0 y = ext0 z -> ext1 y = ext1 z ->
  mat_holds m x f -> mat_holds m y g -> allocated m (mcells z) ->
  disjoint_or_aligned_m x z -> disjoint_or_aligned_m y z ->
  kb_ensures rev (kb_add_2 x y z) m (fun m' => mat_holds m' z (fun i j => f i j + g i j) /\ changes_only m m' (mcells z)).
Proof. exact (@kb_add_2_ok). Qed.
Print Assumptions C68_kk_add_matrices.
(** A row-major and a column-major operand *)
Example C68_add_matrices_case : kb_ensures false (kb_add_2 (row_major 0 2 2) (col_major 4 2 2) (row_major 8 2 2))
  (mem_of [1;2;3;4; 10;30;20;40; 0;0;0;0]%Z : mem zops)
  (fun m' => m' 8 = Some 11%Z /\ m' 9 = Some 22%Z /\ m' 10 = Some 33%Z /\ m' 11 = Some 44%Z).
Proof.
  eapply kb_mono; [apply C68_kk_add_matrices with (f := zm [[1;2];[3;4]]%Z) (g := zm [[10;20];[30;40]]%Z); conc|].
  intros m' [H1 H2]. split; [mcell H1 0 0|]. split; [mcell H1 0 1|]. split; [mcell H1 1 0|mcell H1 1 1].
Qed.
Theorem C68_kk_scale_vector : forall (O : ops) rev (m : mem O) alpha x f, mul_commutes O -> plain_v x -> vec_holds m x f ->
  kb_ensures rev (kb_scale_1 alpha x) m (fun m' => vec_holds m' x (fun i => f i * alpha) /\ changes_only m m' (vcells x)).
Proof. exact (@kb_scale_1_ok). Qed.
Print Assumptions C68_kk_scale_vector.
Example C68_scale_vector_case : kb_ensures false (kb_scale_1 (O := zops) 3%Z (vec_at 1 2)) (mem_of [7;1;2;7]%Z : mem zops)
  (fun m' => m' 0 = Some 7%Z /\ m' 1 = Some 3%Z /\ m' 2 = Some 6%Z).
Proof.
  eapply kb_mono; [apply C68_kk_scale_vector with (f := zv [1;2]%Z); conc|].
  intros m' [H1 H2]. split; [other H2|]. split; [vcell H1 0|vcell H1 1].
Qed.
Theorem C68_kk_scale_matrix : forall (O : ops) rev (m : mem O) alpha x f, mul_commutes O -> plain_m x -> mat_holds m x f ->
  kb_ensures rev (kb_scale_2 alpha x) m (fun m' => mat_holds m' x (fun i j => f i j * alpha) /\ changes_only m m' (mcells x)).
Proof. exact (@kb_scale_2_ok). Qed.
Print Assumptions C68_kk_scale_matrix.
Example C68_scale_matrix_case : kb_ensures false (kb_scale_2 (O := zops) 3%Z (col_major 0 2 2)) (mem_of [1;3;2;4;9]%Z : mem zops)
  (fun m' => m' 1 = Some 9%Z /\ m' 2 = Some 6%Z /\ m' 4 = Some 9%Z).
Proof.
  eapply kb_mono; [apply C68_kk_scale_matrix with (f := zm [[1;2];[3;4]]%Z); conc|].
  intros m' [H1 H2]. split; [mcell H1 1 0|]. split; [mcell H1 0 1|other H2].
Qed.
Theorem C68_kk_copy_vector : forall (O : ops) rev (m : mem O) x y f, plain_v x -> plain_v y -> vext x = vext y -> vec_holds m x f ->
  allocated m (vcells y) -> disjoint_or_aligned_v x y ->
  kb_ensures rev (kb_copy_1 x y) m (fun m' => vec_holds m' y f /\ changes_only m m' (vcells y)).
Proof. exact (@kb_copy_1_ok). Qed.
Print Assumptions C68_kk_copy_vector.
Example C68_copy_vector_case : kb_ensures false (kb_copy_1 (vec_at 0 2) (vec_at 2 2)) (mem_of [1;2;0;0;9]%Z : mem zops)
  (fun m' => m' 2 = Some 1%Z /\ m' 3 = Some 2%Z /\ m' 4 = Some 9%Z).
Proof.
  eapply kb_mono; [apply C68_kk_copy_vector with (f := zv [1;2]%Z); conc|].
  intros m' [H1 H2]. split; [vcell H1 0|]. split; [vcell H1 1|other H2].
Qed.
Theorem C68_kk_copy_matrix : forall (O : ops) rev (m : mem O) x y f, plain_m x -> plain_m y -> ext0 x = ext0 y -> ext1 x = ext1 y -> mat_holds m x f ->
  allocated m (mcells y) -> disjoint_or_aligned_m x y ->
  kb_ensures rev (kb_copy_2 x y) m (fun m' => mat_holds m' y f /\ changes_only m m' (mcells y)).
Proof. exact (@kb_copy_2_ok). Qed.
Print Assumptions C68_kk_copy_matrix.
Example C68_copy_matrix_case : kb_ensures false (kb_copy_2 (row_major 0 2 2) (row_major 4 2 2)) (mem_of [1;2;3;4;0;0;0;0;9]%Z : mem zops)
  (fun m' => m' 5 = Some 2%Z /\ m' 6 = Some 3%Z /\ m' 8 = Some 9%Z).
Proof.
  eapply kb_mono; [apply C68_kk_copy_matrix with (f := zm [[1;2];[3;4]]%Z); conc|].
  intros m' [H1 H2]. split; [mcell H1 0 1|]. split; [mcell H1 1 0|other H2].
Qed.
Theorem C68_kk_dotc : forall (O : ops) (M : Type) (mag : O -> M) ltb (m : mem O) x y f g init, add_laws O ->
  plain_v (O := O) (Vec (vbase x) (vext x) (voff x) ADefault) -> plain_v y -> vacc x = AConj ADefault ->
  vext x = vext y -> vec_holds m x f -> vec_holds m y g ->
  kb_returns mag ltb (kb_dot_conj x y init) m (fun r => r = init + bigsum (vext x) (fun k => f k * g k)).
Proof. exact (@kb_dot_conj_ok). Qed.
Print Assumptions C68_kk_dotc.
(** conj(1+2i) (3+i) + conj(i) (2) + (1+i) = 5-5i - 2i + 1+i *)
Example C68_dotc_case : kb_returns (fun v : gops => fst v) Z.ltb
  (kb_dot_conj (Vec 0 2 (fun i => i) (AConj ADefault)) (vec_at 2 2) ((1,1)%Z : gops))
  (mem_of [(1,2);(0,1);(3,1);(2,0)]%Z : mem gops) (fun r => r = (6,-6)%Z).
Proof.
  assert (K := C68_kk_dotc gops Z (fun v => fst v) Z.ltb (mem_of [(1,2);(0,1);(3,1);(2,0)]%Z : mem gops)
    (Vec 0 2 (fun i => i) (AConj ADefault)) (vec_at 2 2) (gv [(1,-2);(0,-1)]%Z) (gv [(3,1);(2,0)]%Z) ((1,1)%Z : gops)).
  eapply kb_returns_mono; [apply K; try exact (ring_add gring); conc|]. intros r ->. reflexivity.
Qed.
Theorem C68_kk_idx_abs_max : forall (O : ops) (M : Type) (mag : O -> M) (ltb : M -> M -> bool) size_max (m : mem O) v f,
  plain_v v ->
  (forall i, i < vext v -> ltb (mag (f i)) (mag (f i)) = false) ->
  (forall i j k, i < vext v -> j < vext v -> k < vext v ->
     ltb (mag (f i)) (mag (f j)) = true -> ltb (mag (f j)) (mag (f k)) = true -> ltb (mag (f i)) (mag (f k)) = true) ->
  (forall i j k, i < vext v -> j < vext v -> k < vext v ->
     ltb (mag (f i)) (mag (f k)) = true -> ltb (mag (f i)) (mag (f j)) = true \/ ltb (mag (f j)) (mag (f k)) = true) ->
  vec_holds m v f ->
  kb_returns mag ltb (kb_vector_idx_abs_max size_max v) m (fun r =>
    (vext v = 0 /\ r = size_max) \/
    exists k, r = N.of_nat k /\ k < vext v /\
      (forall i, i < vext v -> ltb (mag (f k)) (mag (f i)) = false) /\
      (forall i, i < k -> ltb (mag (f i)) (mag (f k)) = true)).
Proof. exact (@kb_idx_abs_max_ok). Qed.
Print Assumptions C68_kk_idx_abs_max.
Example C68_idx_abs_max_case : kb_returns (O := zops) Z.abs Z.ltb (kb_vector_idx_abs_max 255 (vec_at 0 4)) (mem_of [3;-7;7;1]%Z : mem zops) (fun r => r = 1%N) /\
  kb_returns (O := zops) Z.abs Z.ltb (kb_vector_idx_abs_max 255 (vec_at 0 0)) (mem_of [] : mem zops) (fun r => r = 255%N).
Proof.
  assert (T : forall f : nat -> Z, forall i j k : nat, Z.ltb (Z.abs (f i)) (Z.abs (f k)) = true ->
    Z.ltb (Z.abs (f i)) (Z.abs (f j)) = true \/ Z.ltb (Z.abs (f j)) (Z.abs (f k)) = true) by (intros; rewrite !Z.ltb_lt in *; lia).
  split.
  - eapply kb_returns_mono; [apply C68_kk_idx_abs_max with (f := zv [3;-7;7;1]%Z); try (intros; apply T; auto; fail); conc; intros; rewrite ?Z.ltb_lt, ?Z.ltb_ge in *; lia|].
    intros r [[H _]|(k & -> & Hk & K1 & K2)]; [discriminate|]. simpl in Hk.
    destruct k as [|[|[|[|k]]]]; try lia; try reflexivity.
    + specialize (K1 1 ltac:(simpl; lia)). discriminate K1.
    + specialize (K2 1 ltac:(lia)). discriminate K2.
    + specialize (K1 1 ltac:(simpl; lia)). discriminate K1.
  - eapply kb_returns_mono; [apply C68_kk_idx_abs_max with (f := zv []); try (intros; apply T; auto; fail); conc; simpl; intros; lia|].
    intros r [[_ H]|(k & _ & Hk & _)]; [exact H|simpl in Hk; lia].
Qed.
(** Not covered: A of layout_transpose, where the result is wrong (C68_kk_gemv_transposed_refuted). *)
Theorem C68_kk_gemv_partial : forall (O : ops) rev (m : mem O) A x y a f, ring_laws O -> plain_m A -> plain_v x -> plain_v y ->
  ext1 A = vext x -> ext0 A = vext y -> mat_holds m A a -> vec_holds m x f -> allocated m (vcells y) ->
  disjoint (mcells A) (vcells y) -> disjoint (vcells x) (vcells y) ->
  kb_ensures rev (kb_matrix_vector_product A x y) m (fun m' =>
    vec_holds m' y (fun i => bigsum (ext1 A) (fun j => a i j * f j)) /\ changes_only m m' (vcells y)).
Proof. exact (@kb_gemv_ok). Qed.
Print Assumptions C68_kk_gemv_partial.
Example C68_gemv_case : kb_ensures false (kb_matrix_vector_product (row_major 0 2 2) (vec_at 4 2) (vec_at 6 2)) (mem_of [1;2;3;4; 5;6; 0;0]%Z : mem zops)
  (fun m' => m' 6 = Some 17%Z /\ m' 7 = Some 39%Z /\ m' 0 = Some 1%Z).
Proof.
  eapply kb_mono; [apply C68_kk_gemv_partial with (a := zm [[1;2];[3;4]]%Z) (f := zv [5;6]%Z); conc|].
  intros m' [H1 H2]. split; [vcell H1 0|]. split; [vcell H1 1|other H2].
Qed.
(** Any accessors (default ones go to KokkosBlas, others to the sequential algorithm); A or B may be
    transposed.  Not covered: both transposed (C68_kk_gemm_both_transposed_refuted) and a transposed C
    (C68_kk_gemm_transposed_result_refuted). *)
Theorem C68_kk_gemm_partial : forall (O : ops) rev (m : mem O) A B C a b, ring_laws O -> viewable_m A -> viewable_m B -> plain_m C ->
  ~ (has_transposed_layout A /\ has_transposed_layout B) ->
  ext1 A = ext0 B -> ext0 A = ext0 C -> ext1 B = ext1 C -> mat_holds m A a -> mat_holds m B b -> allocated m (mcells C) ->
  disjoint (mcells A) (mcells C) -> disjoint (mcells B) (mcells C) ->
  kb_ensures rev (kb_matrix_product A B C) m (fun m' =>
    mat_holds m' C (fun i j => bigsum (ext1 A) (fun k => a i k * b k j)) /\ changes_only m m' (mcells C)).
Proof. exact (@kb_gemm_ok). Qed.
Print Assumptions C68_kk_gemm_partial.
(** A transposed: KokkosBlas gets the untransposed view and "T".  A scaled: the sequential algorithm. *)
Example C68_gemm_case :
  let m : mem zops := mem_of [1;2;3;4; 5;6; 0;0]%Z in
  let A l c : mat zops := Mat 0 2 2 l c in
  kb_ensures false (kb_matrix_product (A (LTrans LRight) ADefault) (col_major 4 2 1) (col_major 6 2 1)) m
    (fun m' => m' 6 = Some 23%Z /\ m' 7 = Some 34%Z) /\
  kb_ensures false (kb_matrix_product (A LRight (@AScaled zops 2%Z ADefault)) (col_major 4 2 1) (col_major 6 2 1)) m
    (fun m' => m' 6 = Some 34%Z /\ m' 7 = Some 78%Z).
Proof.
  intros m A. split.
  - eapply kb_mono; [apply C68_kk_gemm_partial with (a := zm [[1;3];[2;4]]%Z) (b := zm [[5];[6]]%Z); conc|].
    + intros [_ [l Hl]]. discriminate Hl.
    + intros m' [H1 H2]. split; [mcell H1 0 0|mcell H1 1 0].
  - eapply kb_mono; [apply C68_kk_gemm_partial with (a := zm [[2;4];[6;8]]%Z) (b := zm [[5];[6]]%Z); conc|].
    + intros [_ [l Hl]]. discriminate Hl.
    + intros m' [H1 H2]. split; [mcell H1 0 0|mcell H1 1 0].
Qed.

(** Exactly the calls with mismatched extents end in an exception, before anything is written. *)
Theorem C68_kk_add_vectors_throws : forall (O : ops) (x y z : vec O), kb_add_1 x y z = KThrow <-> vext x <> vext y \/ vext y <> vext z.
Proof. exact (@kb_add_1_throws). Qed.
Print Assumptions C68_kk_add_vectors_throws.
Theorem C68_kk_add_matrices_throws : forall (O : ops) (x y z : mat O), kb_add_2 x y z = KThrow <->
  ext0 x <> ext0 y \/ ext0 y <> ext0 z \/ ext1 x <> ext1 y \/ ext1 y <> ext1 z.
Proof. exact (@kb_add_2_throws). Qed.
Print Assumptions C68_kk_add_matrices_throws.
Theorem C68_kk_dotc_throws : forall (O : ops) x y (init : O), kb_dot_conj x y init = KVThrow _ <-> vext x <> vext y.
Proof. exact (@kb_dot_conj_throws). Qed.
Print Assumptions C68_kk_dotc_throws.
Theorem C68_kk_gemv_throws : forall (O : ops) (A : mat O) x y, kb_matrix_vector_product A x y = KThrow <-> ext1 A <> vext x \/ ext0 A <> vext y.
Proof. exact (@kb_gemv_throws). Qed.
Print Assumptions C68_kk_gemv_throws.
Theorem C68_kk_gemm_throws : forall (O : ops) (A B C : mat O), ~ (has_transposed_layout A /\ has_transposed_layout B) ->
  (kb_matrix_product A B C = KThrow <-> ext1 A <> ext0 B \/ ext0 A <> ext0 C \/ ext1 B <> ext1 C).
Proof. exact (@kb_gemm_throws). Qed.
Print Assumptions C68_kk_gemm_throws.
Example C68_throws_case : kb_add_1 (@vec_at zops 0 2) (vec_at 2 3) (vec_at 5 3) = KThrow /\
  kb_add_1 (@vec_at zops 0 2) (vec_at 2 2) (vec_at 5 2) <> KThrow /\
  kb_matrix_vector_product (@row_major zops 0 2 3) (vec_at 6 3) (vec_at 9 3) = KThrow /\
  kb_matrix_product (@row_major zops 0 2 3) (row_major 6 3 2) (row_major 12 2 3) = KThrow /\
  kb_matrix_product (@row_major zops 0 2 3) (row_major 6 3 2) (row_major 12 2 2) <> KThrow.
Proof. repeat split; try reflexivity; discriminate. Qed.

(** ** What does not hold *)
(** layout_transpose A (square): KokkosBlas receives the untransposed matrix and "N". *)
Theorem C68_kk_gemv_transposed_refuted : exists (m : mem zops) A x y a f,
  mlay A = LTrans LRight /\ macc A = ADefault /\ plain_v x /\ plain_v y /\ ext1 A = vext x /\ ext0 A = vext y /\
  mat_holds m A a /\ vec_holds m x f /\ allocated m (vcells y) /\
  disjoint (mcells A) (vcells y) /\ disjoint (vcells x) (vcells y) /\
  forall rev, ~ kb_ensures rev (kb_matrix_vector_product A x y) m (fun m' =>
    vec_holds m' y (fun i => bigsum (ext1 A) (fun j => a i j * f j))).
Proof.
  exists (mem_of [1;2;3;4; 1;0; 0;0]%Z), (Mat 0 2 2 (LTrans LRight) ADefault), (vec_at 4 2), (vec_at 6 2),
    (zm [[1;3];[2;4]]%Z), (zv [1;0]%Z).
  do 11 (split; [conc|]). intros rev K. cbn -[kb_ensures mem_of] in K.
  destruct (kb_end K) as (m' & [P _] & Q).
  destruct (P (zm [[1;2];[3;4]]%Z) (zv [1;0]%Z)) as [P1 _]; [conc|conc|]. specialize (P1 eq_refl).
  assert (H1 : m' 7 = Some 3%Z) by (vcell P1 1). assert (H2 : m' 7 = Some 2%Z) by (vcell Q 1). congruence.
Qed.
Print Assumptions C68_kk_gemv_transposed_refuted.
(** layout_transpose C: the transpose of the product is stored. *)
Theorem C68_kk_gemm_transposed_result_refuted : exists (m : mem zops) A B C a b,
  plain_m A /\ plain_m B /\ mlay C = LTrans LRight /\ mwritable C /\ ext1 A = ext0 B /\ ext0 A = ext0 C /\ ext1 B = ext1 C /\
  mat_holds m A a /\ mat_holds m B b /\ allocated m (mcells C) /\ disjoint (mcells A) (mcells C) /\ disjoint (mcells B) (mcells C) /\
  forall rev, ~ kb_ensures rev (kb_matrix_product A B C) m (fun m' =>
    mat_holds m' C (fun i j => bigsum (ext1 A) (fun k => a i k * b k j))).
Proof.
  exists (mem_of [1;2;3;4; 1;0;0;1; 0;0;0;0]%Z), (row_major 0 2 2), (row_major 4 2 2), (Mat 8 2 2 (LTrans LRight) ADefault),
    (zm [[1;2];[3;4]]%Z), (zm [[1;0];[0;1]]%Z).
  do 12 (split; [conc|]). intros rev K. cbn -[kb_ensures mem_of] in K.
  destruct (kb_end K) as (m' & [P _] & Q).
  destruct (P (zm [[1;2];[3;4]]%Z) (zm [[1;0];[0;1]]%Z)) as [P1 _]; [conc|conc|]. specialize (P1 eq_refl).
  assert (H1 : m' 9 = Some 2%Z) by (mcell P1 0 1). assert (H2 : m' 9 = Some 3%Z) by (mcell Q 1 0). congruence.
Qed.
Print Assumptions C68_kk_gemm_transposed_result_refuted.
(** Both operands layout_transpose: the call is ambiguous. *)
Theorem C68_kk_gemm_both_transposed_refuted : forall (O : ops) rev (m : mem O) A B C Q,
  has_transposed_layout A -> has_transposed_layout B -> ~ kb_ensures rev (kb_matrix_product A B C) m Q.
Proof. intros O rev m A B C Q [l Hl] [l' Hl']. unfold kb_matrix_product, is_transposed. rewrite Hl, Hl'. exact (fun F => F). Qed.
Print Assumptions C68_kk_gemm_both_transposed_refuted.
Example C68_both_transposed_case :
  let A : mat zops := Mat 0 2 2 (LTrans LRight) ADefault in has_transposed_layout A /\ kb_matrix_product A A (row_major 4 2 2) = KIllFormed.
Proof. split; [eexists; reflexivity|reflexivity]. Qed.
(** The updating product with a scaled or conjugated y cannot be instantiated. *)
Theorem C68_kk_gemv_scaled_y_refuted : forall (O : ops) rev (m : mem O) A x y z Q,
  ~ kb_ensures rev (kb_matrix_vector_product_scaled A x y z) m Q.
Proof. intros O rev m A x y z Q H. exact H. Qed.
Print Assumptions C68_kk_gemv_scaled_y_refuted.

(** * C69 *)
(** Solves: right if "L" and "U" have the meaning of the BLAS ([rev = false]).
    [fits U64]: the extent is a value of the 64-bit size_type. *)
Theorem C69_kk_trsv : forall (O : ops) (m : mem O) A t d b x a g, ring_laws O -> div_laws O -> fits U64 (ext0 A) ->
  plain_m A -> plain_v b -> plain_v x -> ext0 A = ext1 A -> ext1 A = vext b -> ext0 A = vext x ->
  mat_holds_on m A (stored t d) a -> vec_holds m b g -> allocated m (vcells x) ->
  disjoint (mcells_on A (stored t d)) (vcells x) -> disjoint_or_aligned_v b x ->
  (d = Explicit -> forall i, i < ext0 A -> a i i <> zero) ->
  kb_ensures false (kb_triangular_matrix_vector_solve A t d b x) m (fun m' =>
    (exists f, vec_holds m' x f /\ forall i, i < ext0 A -> bigsum (ext0 A) (fun j => tri_of t d a i j * f j) = g i)
    /\ changes_only m m' (vcells x)).
Proof. exact (@kb_trsv_ok). Qed.
Print Assumptions C69_kk_trsv.
(** L = [[2,0],[1,4]] (the 9 above the diagonal is not used), b = [2;9] *)
Example C69_trsv_case : kb_ensures false (kb_triangular_matrix_vector_solve (row_major 0 2 2) Lower Explicit (vec_at 4 2) (vec_at 6 2))
  (mem_of [q2;Q2Qc 9;q1;q4; q2;Q2Qc 9; q0;q0] : mem qops) (fun m' => m' 6 = Some q1 /\ m' 7 = Some q2).
Proof.
  eapply kb_mono; [apply C69_kk_trsv with (a := qm [[q2;Q2Qc 9];[q1;q4]]) (g := qv [q2;Q2Qc 9]); conc|].
  - intros _ i Hi. destruct i as [|[|i]]; [discriminate|discriminate|simpl in Hi; lia].
  - intros m' [(f & H1 & H2) H3]. pose proof (H2 0 ltac:(simpl; lia)) as E0. pose proof (H2 1 ltac:(simpl; lia)) as E1.
    change ((0 + q2 * f 0%nat + 0 * f 1%nat)%Qc = q2) in E0. change ((0 + q1 * f 0%nat + q4 * f 1%nat)%Qc = Q2Qc 9) in E1.
    assert (F0 : f 0%nat = q1). { apply qcancel with (a := q2); [discriminate|]. refine (eq_trans _ (eq_trans E0 _)); [ring|apply Qc_is_canon; reflexivity]. }
    assert (F1 : f 1%nat = q2). { rewrite F0 in E1. apply qcancel with (a := q4); [discriminate|].
      transitivity ((0 + q1 * q1 + q4 * f 1%nat) - q1 * q1)%Qc; [ring|]. refine (eq_trans (f_equal (fun z => (z - q1 * q1)%Qc) E1) _). apply Qc_is_canon; reflexivity. }
    split; [rewrite <- F0; vcell H1 0|rewrite <- F1; vcell H1 1].
Qed.
Theorem C69_kk_trsm_left : forall (O : ops) (m : mem O) A t d B X a b, ring_laws O -> div_laws O -> fits U64 (ext0 A) ->
  plain_m A -> plain_m B -> plain_m X -> ext0 A = ext1 A -> ext1 A = ext0 B -> ext0 X = ext0 B -> ext1 X = ext1 B ->
  mat_holds_on m A (stored t d) a -> mat_holds m B b -> allocated m (mcells X) ->
  disjoint (mcells_on A (stored t d)) (mcells X) -> disjoint_or_aligned_m B X ->
  (d = Explicit -> forall i, i < ext0 A -> a i i <> zero) ->
  kb_ensures false (kb_triangular_matrix_matrix_left_solve A t d B X) m (fun m' =>
    (exists x, mat_holds m' X x /\
      forall i j, i < ext0 X -> j < ext1 X -> bigsum (ext0 A) (fun k => tri_of t d a i k * x k j) = b i j)
    /\ changes_only m m' (mcells X)).
Proof. exact (@kb_left_solve_ok). Qed.
Print Assumptions C69_kk_trsm_left.
Theorem C69_kk_trsm_right : forall (O : ops) (m : mem O) A t d B X a b, ring_laws O -> div_laws O -> fits U64 (ext0 A) ->
  plain_m A -> plain_m B -> plain_m X -> ext0 A = ext1 A -> ext1 A = ext1 B -> ext0 X = ext0 B -> ext1 X = ext1 B ->
  mat_holds_on m A (stored t d) a -> mat_holds m B b -> allocated m (mcells X) ->
  disjoint (mcells_on A (stored t d)) (mcells X) -> disjoint_or_aligned_m B X ->
  (d = Explicit -> forall i, i < ext0 A -> a i i <> zero) ->
  kb_ensures false (kb_triangular_matrix_matrix_right_solve A t d B X) m (fun m' =>
    (exists x, mat_holds m' X x /\
      forall i j, i < ext0 X -> j < ext1 X -> bigsum (ext0 A) (fun k => x i k * tri_of t d a k j) = b i j)
    /\ changes_only m m' (mcells X)).
Proof. exact (@kb_right_solve_ok). Qed.
Print Assumptions C69_kk_trsm_right.
(** Products: right only if KokkosBlas exchanges "L" and "U" ([rev = true]); see the refutations below. *)
Theorem C69_kk_trmm_left_partial : forall (O : ops) (m : mem O) A t B C a b, ring_laws O ->
  plain_m A -> plain_m B -> plain_m C -> ext0 A = ext1 A -> ext1 A = ext0 B -> ext0 A = ext0 C -> ext1 B = ext1 C ->
  mat_holds_on m A (in_tri t) a -> mat_holds m B b -> allocated m (mcells C) ->
  disjoint (mcells_on A (in_tri t)) (mcells C) -> disjoint_or_aligned_m B C ->
  kb_ensures true (kb_triangular_matrix_left_product A t B C) m (fun m' =>
    mat_holds m' C (fun i j => bigsum (ext0 A) (fun k => tri_of t Explicit a i k * b k j)) /\ changes_only m m' (mcells C)).
Proof. exact (@kb_left_product_ok). Qed.
Print Assumptions C69_kk_trmm_left_partial.
Theorem C69_kk_trmm_right_partial : forall (O : ops) (m : mem O) A t B C a b, ring_laws O ->
  plain_m A -> plain_m B -> plain_m C -> ext0 A = ext1 A -> ext1 B = ext0 A -> ext0 B = ext0 C -> ext1 A = ext1 C ->
  mat_holds_on m A (in_tri t) a -> mat_holds m B b -> allocated m (mcells C) ->
  disjoint (mcells_on A (in_tri t)) (mcells C) -> disjoint_or_aligned_m B C ->
  kb_ensures true (kb_triangular_matrix_right_product A t B C) m (fun m' =>
    mat_holds m' C (fun i j => bigsum (ext0 A) (fun k => b i k * tri_of t Explicit a k j)) /\ changes_only m m' (mcells C)).
Proof. exact (@kb_right_product_ok). Qed.
Print Assumptions C69_kk_trmm_right_partial.
Theorem C69_kk_trmm_left_inplace_partial : forall (O : ops) (m : mem O) A t C a c, ring_laws O ->
  plain_m A -> plain_m C -> ext0 A = ext1 A -> ext0 A = ext0 C ->
  mat_holds_on m A (in_tri t) a -> mat_holds m C c -> disjoint (mcells_on A (in_tri t)) (mcells C) ->
  kb_ensures true (kb_triangular_matrix_left_product_inplace A t C) m (fun m' =>
    mat_holds m' C (fun i j => bigsum (ext0 A) (fun k => tri_of t Explicit a i k * c k j)) /\ changes_only m m' (mcells C)).
Proof. exact (@kb_left_product_inplace_ok). Qed.
Print Assumptions C69_kk_trmm_left_inplace_partial.
Theorem C69_kk_trmm_right_inplace_partial : forall (O : ops) (m : mem O) A t C a c, ring_laws O ->
  plain_m A -> plain_m C -> ext0 A = ext1 A -> ext1 C = ext0 A ->
  mat_holds_on m A (in_tri t) a -> mat_holds m C c -> disjoint (mcells_on A (in_tri t)) (mcells C) ->
  kb_ensures true (kb_triangular_matrix_right_product_inplace A t C) m (fun m' =>
    mat_holds m' C (fun i j => bigsum (ext0 A) (fun k => c i k * tri_of t Explicit a k j)) /\ changes_only m m' (mcells C)).
Proof. exact (@kb_right_product_inplace_ok). Qed.
Print Assumptions C69_kk_trmm_right_inplace_partial.
Theorem C69_kk_trsv_throws : forall (O : ops) (A : mat O) t d b x, kb_triangular_matrix_vector_solve A t d b x = KThrow <->
  ext0 A <> ext1 A \/ ext1 A <> vext b \/ ext0 A <> vext x.
Proof. exact (@kb_trsv_throws). Qed.
Print Assumptions C69_kk_trsv_throws.
Theorem C69_kk_trsm_left_throws : forall (O : ops) (A : mat O) t d B X, kb_triangular_matrix_matrix_left_solve A t d B X = KThrow <->
  ext0 A <> ext1 A \/ ext1 A <> ext0 B \/ ext0 X <> ext0 B \/ ext1 X <> ext1 B.
Proof. exact (@kb_left_solve_throws). Qed.
Print Assumptions C69_kk_trsm_left_throws.
Theorem C69_kk_trsm_right_throws : forall (O : ops) (A : mat O) t d B X, kb_triangular_matrix_matrix_right_solve A t d B X = KThrow <->
  ext0 A <> ext1 A \/ ext1 A <> ext1 B \/ ext0 X <> ext0 B \/ ext1 X <> ext1 B.
Proof. exact (@kb_right_solve_throws). Qed.
Print Assumptions C69_kk_trsm_right_throws.
Theorem C69_kk_trmm_left_throws : forall (O : ops) (A : mat O) t B C, kb_triangular_matrix_left_product A t B C = KThrow <->
  ext0 A <> ext1 A \/ ext1 A <> ext0 B \/ ext0 A <> ext0 C \/ ext1 B <> ext1 C.
Proof. exact (@kb_left_product_throws). Qed.
Print Assumptions C69_kk_trmm_left_throws.
Theorem C69_kk_trmm_right_throws : forall (O : ops) (A : mat O) t B C, kb_triangular_matrix_right_product A t B C = KThrow <->
  ext0 A <> ext1 A \/ ext1 B <> ext0 A \/ ext0 B <> ext0 C \/ ext1 A <> ext1 C.
Proof. exact (@kb_right_product_throws). Qed.
Print Assumptions C69_kk_trmm_right_throws.

(** A = [[1,5],[2,1]], lower triangle; B = [1;1]: the product is [1;3].  The upper triangle would give [6;1]. *)
Example C69_trmm_case :
  let m : mem zops := mem_of [1;5;2;1; 1;1; 0;0]%Z in
  kb_ensures true (kb_triangular_matrix_left_product (row_major 0 2 2) Lower (col_major 4 2 1) (col_major 6 2 1)) m
    (fun m' => m' 6 = Some 1%Z /\ m' 7 = Some 3%Z /\ m' 4 = Some 1%Z) /\
  kb_ensures true (kb_triangular_matrix_left_product_inplace (row_major 0 2 2) Lower (col_major 4 2 1)) m
    (fun m' => m' 4 = Some 1%Z /\ m' 5 = Some 3%Z) /\
  kb_ensures true (kb_triangular_matrix_right_product (row_major 0 2 2) Lower (row_major 4 1 2) (row_major 6 1 2)) m
    (fun m' => m' 6 = Some 3%Z /\ m' 7 = Some 1%Z) /\
  kb_ensures true (kb_triangular_matrix_right_product_inplace (row_major 0 2 2) Lower (row_major 4 1 2)) m
    (fun m' => m' 4 = Some 3%Z /\ m' 5 = Some 1%Z).
Proof.
  intros m. split; [|split; [|split]].
  - eapply kb_mono; [apply C69_kk_trmm_left_partial with (a := zm [[1;5];[2;1]]%Z) (b := zm [[1];[1]]%Z); conc|].
    intros m' [H1 H2]. split; [mcell H1 0 0|]. split; [mcell H1 1 0|other H2].
  - eapply kb_mono; [apply C69_kk_trmm_left_inplace_partial with (a := zm [[1;5];[2;1]]%Z) (c := zm [[1];[1]]%Z); conc|].
    intros m' [H1 H2]. split; [mcell H1 0 0|mcell H1 1 0].
  - eapply kb_mono; [apply C69_kk_trmm_right_partial with (a := zm [[1;5];[2;1]]%Z) (b := zm [[1;1]]%Z); conc|].
    intros m' [H1 H2]. split; [mcell H1 0 0|mcell H1 0 1].
  - eapply kb_mono; [apply C69_kk_trmm_right_inplace_partial with (a := zm [[1;5];[2;1]]%Z) (c := zm [[1;1]]%Z); conc|].
    intros m' [H1 H2]. split; [mcell H1 0 0|mcell H1 0 1].
Qed.
(** Upper triangle with unit diagonal, in place on the right; left with a separate result *)
Example C69_trsm_case :
  let m : mem qops := mem_of [q0;q2;q0;q0; q1;q4; q0;q0] in
  kb_ensures false (kb_triangular_matrix_matrix_left_solve (row_major 0 2 2) Upper ImplicitUnit (col_major 4 2 1) (col_major 6 2 1)) m
    (fun m' => (exists x, mat_holds m' (col_major 6 2 1) x /\ (x 0%nat 0%nat + q2 * x 1%nat 0%nat)%Qc = q1 /\ x 1 0 = q4) /\ m' 5 = Some q4) /\
  kb_ensures false (kb_triangular_matrix_matrix_right_solve (row_major 0 2 2) Upper ImplicitUnit (row_major 4 1 2) (row_major 4 1 2)) m
    (fun m' => (exists x, mat_holds m' (row_major 4 1 2) x /\ x 0 0 = q1 /\ (q2 * x 0%nat 0%nat + x 0%nat 1%nat)%Qc = q4) /\ m' 1 = Some q2).
Proof.
  intros m. split.
  - eapply kb_mono; [apply C69_kk_trsm_left with (a := qm [[q0;q2];[q0;q0]]) (b := qm [[q1];[q4]]); conc; discriminate|].
    intros m' [(x & H1 & H2) H3]. split; [|other H3]. exists x. split; [exact H1|].
    pose proof (H2 0 0 ltac:(simpl; lia) ltac:(simpl; lia)) as E0. pose proof (H2 1 0 ltac:(simpl; lia) ltac:(simpl; lia)) as E1.
    change ((0 + 1 * x 0%nat 0%nat + q2 * x 1%nat 0%nat)%Qc = q1) in E0. change ((0 + 0 * x 0%nat 0%nat + 1 * x 1%nat 0%nat)%Qc = q4) in E1.
    split; [refine (eq_trans _ E0)|refine (eq_trans _ E1)]; match goal with |- context [x ?i ?j] => generalize (x i j : Qc) end;
    try match goal with |- context [x ?i ?j] => generalize (x i j : Qc) end; intros; unfold car, qops in *; ring.
  - eapply kb_mono; [apply C69_kk_trsm_right with (a := qm [[q0;q2];[q0;q0]]) (b := qm [[q1;q4]]); conc; discriminate|].
    intros m' [(x & H1 & H2) H3]. split; [|other H3]. exists x. split; [exact H1|].
    pose proof (H2 0 0 ltac:(simpl; lia) ltac:(simpl; lia)) as E0. pose proof (H2 0 1 ltac:(simpl; lia) ltac:(simpl; lia)) as E1.
    change ((0 + x 0%nat 0%nat * 1 + x 0%nat 1%nat * 0)%Qc = q1) in E0. change ((0 + x 0%nat 0%nat * q2 + x 0%nat 1%nat * 1)%Qc = q4) in E1.
    split; [refine (eq_trans _ E0)|refine (eq_trans _ E1)]; match goal with |- context [x ?i ?j] => generalize (x i j : Qc) end;
    try match goal with |- context [x ?i ?j] => generalize (x i j : Qc) end; intros; unfold car, qops in *; ring.
Qed.
Example C69_throws_case : kb_triangular_matrix_vector_solve (@row_major zops 0 2 2) Lower Explicit (vec_at 4 3) (vec_at 6 2) = KThrow /\
  kb_triangular_matrix_matrix_left_solve (@row_major zops 0 2 2) Lower Explicit (row_major 4 2 3) (row_major 6 2 2) = KThrow /\
  kb_triangular_matrix_left_product (@row_major zops 0 2 3) Lower (row_major 6 3 1) (row_major 9 2 1) = KThrow /\
  kb_triangular_matrix_left_product (@row_major zops 0 2 2) Lower (row_major 6 2 1) (row_major 9 2 1) <> KThrow.
Proof. repeat split; try reflexivity; discriminate. Qed.

(** ** What does not hold *)
(** "L" and "U" as in the BLAS: triangular products use the wrong triangle. *)
Theorem C69_kk_trmm_blas_triangle_refuted : exists (m : mem zops) A C a c,
  plain_m A /\ plain_m C /\ ext0 A = ext1 A /\ ext0 A = ext0 C /\ mat_holds m A a /\ mat_holds m C c /\
  disjoint (mcells A) (mcells C) /\
  ~ kb_ensures false (kb_triangular_matrix_left_product_inplace A Lower C) m (fun m' =>
      mat_holds m' C (fun i j => bigsum (ext0 A) (fun k => tri_of Lower Explicit a i k * c k j))).
Proof.
  exists (mem_of [1;5;2;1; 1;1]%Z), (row_major 0 2 2), (col_major 4 2 1), (zm [[1;5];[2;1]]%Z), (zm [[1];[1]]%Z).
  do 7 (split; [conc|]). intros K. cbn -[kb_ensures mem_of] in K.
  destruct (kb_end K) as (m' & [P _] & Q).
  specialize (P (zm [[1;5];[2;1]]%Z) (zm [[1];[1]]%Z) ltac:(conc) ltac:(conc)).
  assert (H1 : m' 4 = Some 6%Z) by (mcell P 0 0). assert (H2 : m' 4 = Some 1%Z) by (mcell Q 0 0). congruence.
Qed.
Print Assumptions C69_kk_trmm_blas_triangle_refuted.
(** "L" and "U" exchanged: triangular solves use the wrong triangle. *)
Theorem C69_kk_trsm_reversed_triangle_refuted : exists (m : mem zops) A X a b,
  plain_m A /\ plain_m X /\ ext0 A = ext1 A /\ ext0 A = ext0 X /\ mat_holds m A a /\ mat_holds m X b /\
  disjoint (mcells A) (mcells X) /\ (forall i, i < ext0 A -> a i i <> zero) /\
  (exists x : nat -> nat -> zops, forall i j, i < ext0 X -> j < ext1 X ->
     bigsum (ext0 A) (fun k => tri_of Lower Explicit a i k * x k j) = b i j) /\
  ~ kb_ensures true (kb_triangular_matrix_matrix_left_solve A Lower Explicit X X) m (fun m' =>
      exists x, mat_holds m' X x /\
        forall i j, i < ext0 X -> j < ext1 X -> bigsum (ext0 A) (fun k => tri_of Lower Explicit a i k * x k j) = b i j).
Proof.
  exists (mem_of [1;5;2;1; 6;1]%Z), (row_major 0 2 2), (col_major 4 2 1), (zm [[1;5];[2;1]]%Z), (zm [[6];[1]]%Z).
  do 7 (split; [conc|]). split.
  { intros i Hi. destruct i as [|[|i]]; [discriminate|discriminate|simpl in Hi; lia]. }
  split.
  { exists (zm [[6];[-11]]%Z). intros i j Hi Hj. simpl in Hi, Hj. assert (j = 0)%nat by lia. subst j.
    destruct i as [|[|i]]; [reflexivity|reflexivity|lia]. }
  intros K. cbn -[kb_ensures mem_of] in K.
  destruct (kb_end2 K) as (m1 & m' & [P1 P2] & [P3 _] & (x & Q1 & Q2)).
  assert (HX : mat_holds m1 (col_major 4 2 1) (zm [[6];[1]]%Z)) by (apply P1; conc).
  assert (HA : mat_holds m1 (@row_major zops 0 2 2) (zm [[1;5];[2;1]]%Z)).
  { intros i j Hi Hj _. simpl in Hi, Hj. destruct i as [|[|i]]; [| |lia]; (destruct j as [|[|j]]; [| |lia]);
    (eexists; split; [rewrite P2; [reflexivity|intros C; apply mcells_list in C; vm_compute in C; intuition discriminate]|reflexivity]). }
  destruct (P3 (zm [[1;5];[2;1]]%Z) (zm [[6];[1]]%Z)) as (y & Y1 & Y2); [intros i j Hi Hj _; exact (HA i j Hi Hj I)|exact HX|].
  pose proof (Y2 0 0 ltac:(simpl; lia) ltac:(simpl; lia)) as E0. pose proof (Y2 1 0 ltac:(simpl; lia) ltac:(simpl; lia)) as E1.
  pose proof (Q2 0 0 ltac:(simpl; lia) ltac:(simpl; lia)) as E2.
  assert (S : Some (x 0 0) = Some (y 0 0)).
  { exact (eq_trans (eq_sym (cell_m (i := 0) (j := 0) Q1 eq_refl ltac:(simpl; lia) ltac:(simpl; lia)))
      (cell_m (i := 0) (j := 0) Y1 eq_refl ltac:(simpl; lia) ltac:(simpl; lia))). }
  injection S as S. 
  change ((0 + 1 * y 0%nat 0%nat + 5 * y 1%nat 0%nat)%Z = 6%Z) in E0. change ((0 + 0 * y 0%nat 0%nat + 1 * y 1%nat 0%nat)%Z = 1%Z) in E1.
  change ((0 + 1 * x 0%nat 0%nat + 0 * x 1%nat 0%nat)%Z = 6%Z) in E2.
  revert S E0 E1 E2. generalize (x 0 0 : Z) (x 1 0 : Z) (y 0 0 : Z) (y 1 0 : Z). simpl car. intros; lia.
Qed.
Print Assumptions C69_kk_trsm_reversed_triangle_refuted.
(** Whatever KokkosBlas means by "L": products and solves are not both right. *)
Theorem C69_kk_uplo_refuted : forall rev,
  ~ ((forall (m : mem zops) A C a c, plain_m A -> plain_m C -> ext0 A = ext1 A -> ext0 A = ext0 C ->
        mat_holds m A a -> mat_holds m C c -> disjoint (mcells A) (mcells C) ->
        kb_ensures rev (kb_triangular_matrix_left_product_inplace A Lower C) m (fun m' =>
          mat_holds m' C (fun i j => bigsum (ext0 A) (fun k => tri_of Lower Explicit a i k * c k j)))) /\
     (forall (m : mem zops) A X a b, plain_m A -> plain_m X -> ext0 A = ext1 A -> ext0 A = ext0 X ->
        mat_holds m A a -> mat_holds m X b -> disjoint (mcells A) (mcells X) -> (forall i, i < ext0 A -> a i i <> zero) ->
        (exists x : nat -> nat -> zops, forall i j, i < ext0 X -> j < ext1 X -> bigsum (ext0 A) (fun k => tri_of Lower Explicit a i k * x k j) = b i j) ->
        kb_ensures rev (kb_triangular_matrix_matrix_left_solve A Lower Explicit X X) m (fun m' =>
          exists x, mat_holds m' X x /\
            forall i j, i < ext0 X -> j < ext1 X -> bigsum (ext0 A) (fun k => tri_of Lower Explicit a i k * x k j) = b i j))).
Proof.
  intros [|] [H1 H2].
  - destruct C69_kk_trsm_reversed_triangle_refuted as (m & A & X & a & b & K1 & K2 & K3 & K4 & K5 & K6 & K7 & K8 & K9 & K10). apply K10. apply H2; assumption.
  - destruct C69_kk_trmm_blas_triangle_refuted as (m & A & C & a & c & K1 & K2 & K3 & K4 & K5 & K6 & K7 & K8). apply K8. apply H1; assumption.
Qed.
Print Assumptions C69_kk_uplo_refuted.

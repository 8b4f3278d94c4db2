(** Properties C32-C43 and C53: BLAS-3 algorithms. *)
From Coq Require Import List Arith ZArith Lia Bool QArith Qcanon.
From Verif Require Import Mem Scalar View Spec Idx Wp Sums Alg Blas1 Blas2 Blas3 PfBlas3 PfTrsm PfBlas3b Inst PfTrsmB.
Import ListNotations.
Local Open Scope nat_scope.
Local Open Scope sc_scope.

(** A memory with an unallocated cell [b]. *)
Definition hole {T} (l : list T) (b : nat) : mem T := fun a => if a =? b then None else mem_of l a.
Ltac elems2 H1 := eapply mat_holds_on_ext; [|exact H1];
  let i := fresh in let j := fresh in let Hi := fresh in let Hj := fresh in let Ht := fresh in
  intros i j Hi Hj Ht; destruct i as [|[|i]]; [| |simpl in Hi; lia];
  (destruct j as [|[|j]]; [| |simpl in Hj; lia]); simpl in Ht; try reflexivity; lia.

(** * C32 *)
(** Law-free: element (i,j) is ((0 + a_i0 b_0j) + a_i1 b_1j) + ... in exactly this order. *)
Theorem C32_gemm : forall (O : ops) (m : mem O) A B C a b,
  ext0 C = ext0 A -> ext1 A = ext0 B -> ext1 C = ext1 B ->
  mat_holds m A a -> mat_holds m B b -> mwritable C -> allocated m (mcells C) ->
  disjoint (mcells A) (mcells C) -> disjoint (mcells B) (mcells C) ->
  succeeds (matrix_product A B C) m (fun _ m' =>
    mat_holds m' C (fun i j => bigsum (ext1 A) (fun k => a i k * b k j)) /\ changes_only m m' (mcells C)).
Proof. exact (@gemm_ok). Qed.
Print Assumptions C32_gemm.

(** matrix_product(transposed(B), transposed(A), transposed(C)) computes A B into C when elements commute. *)
Theorem C32_gemm_transposed : forall (O : ops) fa fb fc (m : mem O) A B C At Bt Ct a b,
  mul_commutes O ->
  transposed fa A = Some At -> transposed fb B = Some Bt -> transposed fc C = Some Ct ->
  layout_ok (mlay A) (ext0 A) (ext1 A) -> layout_ok (mlay B) (ext0 B) (ext1 B) -> layout_ok (mlay C) (ext0 C) (ext1 C) ->
  ext0 C = ext0 A -> ext1 A = ext0 B -> ext1 C = ext1 B ->
  mat_holds m A a -> mat_holds m B b -> mwritable C -> allocated m (mcells C) ->
  disjoint (mcells A) (mcells C) -> disjoint (mcells B) (mcells C) ->
  succeeds (matrix_product Bt At Ct) m (fun _ m' =>
    mat_holds m' C (fun i j => bigsum (ext1 A) (fun k => a i k * b k j)) /\ changes_only m m' (mcells C)).
Proof. exact (@gemm_transposed). Qed.
Print Assumptions C32_gemm_transposed.

(** 2x3 times 3x2 into a padded column-major C; A is a row-major view, B a scaled view. *)
Example C32_case :
  let m : mem zops := mem_of [1;2;3; 4;5;6; 1;0; 0;1; 1;1; 9;9;9;9;9]%Z in
  let A := row_major 0 2 3 in let B := scaled_m (10%Z : zops) (row_major 6 3 2) in
  let C := Mat 12 2 2 (LLeftPad 3) ADefault in
  succeeds (matrix_product A B C) m (fun _ m' =>
    mat_holds m' C (zm [[40;50];[100;110]]%Z) /\ changes_only m m' (mcells C)).
Proof.
  intros. eapply wp_conseq.
  - apply C32_gemm with (a := zm [[1;2;3];[4;5;6]]%Z) (b := zm [[10;0];[0;10];[10;10]]%Z); concrete.
  - intros _ m' [H1 H2]; split; auto. elems2 H1.
Qed.
(** The non-commutative ring of 2x2 integer matrices shows the order of the factors. *)
Example C32_case_noncommutative :
  let m : mem m2ops := mem_of [((1,1),(0,1)); ((1,0),(1,1)); ((0,0),(0,0))]%Z in
  succeeds (matrix_product (row_major 0 1 1) (row_major 1 1 1) (row_major 2 1 1)) m (fun _ m' =>
    m' 2 = Some ((2,1),(1,1))%Z).
Proof. intros. eexists _, _. split; reflexivity. Qed.
Example C32_transposed_case :
  let m : mem zops := mem_of [1;2; 3;4; 5;6; 7;8; 0;0;0;0]%Z in
  succeeds (matrix_product (col_major 4 2 2) (col_major 0 2 2) (col_major 8 2 2)) m (fun _ m' =>
    mat_holds m' (row_major 8 2 2) (zm [[19;22];[43;50]]%Z) /\ changes_only m m' (mcells (@row_major zops 8 2 2))).
Proof.
  intros. eapply wp_conseq.
  - apply (C32_gemm_transposed zops false false false m (row_major 0 2 2) (row_major 4 2 2) (row_major 8 2 2)) with
      (a := zm [[1;2];[3;4]]%Z) (b := zm [[5;6];[7;8]]%Z); try exact I; try exact zcomm; concrete.
  - intros _ m' [H1 H2]; split; auto. elems2 H1.
Qed.

(** * C33 *)
(** E and C may be the same view ([disjoint_or_aligned_m]). *)
Theorem C33_gemm_updating : forall (O : ops) (m : mem O) A B E C a b e,
  ext0 C = ext0 A -> ext1 A = ext0 B -> ext1 C = ext1 B -> ext0 E = ext0 C -> ext1 E = ext1 C ->
  mat_holds m A a -> mat_holds m B b -> mat_holds m E e -> mwritable C -> allocated m (mcells C) ->
  disjoint (mcells A) (mcells C) -> disjoint (mcells B) (mcells C) -> disjoint_or_aligned_m E C ->
  succeeds (matrix_product_upd A B E C) m (fun _ m' =>
    mat_holds m' C (fun i j => sum_from (e i j) 0 (ext1 A) (fun k => a i k * b k j)) /\ changes_only m m' (mcells C)).
Proof. exact (@gemm_upd_ok). Qed.
Print Assumptions C33_gemm_updating.

Example C33_case :
  let m : mem zops := mem_of [1;2; 3;4; 5;6; 7;8; 100;200;300;400]%Z in
  let C := row_major 8 2 2 in
  succeeds (matrix_product_upd (row_major 0 2 2) (row_major 4 2 2) C C) m (fun _ m' =>
    mat_holds m' C (zm [[119;222];[343;450]]%Z) /\ changes_only m m' (mcells C)).
Proof.
  intros. eapply wp_conseq.
  - apply C33_gemm_updating with (a := zm [[1;2];[3;4]]%Z) (b := zm [[5;6];[7;8]]%Z) (e := zm [[100;200];[300;400]]%Z); concrete.
  - intros _ m' [H1 H2]; split; auto. elems2 H1.
Qed.

(** * C34 *)
(** [mat_holds_on m A (stored t d) a] only constrains the triangle (without the diagonal when it is
    implicit): every other element may be an unallocated cell. [ty] is the index type in which the code
    computes its loop bounds. *)
Theorem C34_trmm_left : forall (O : ops) ty (m : mem O) A t d B C a b,
  ring_laws O -> fits ty (ext0 C) ->
  ext0 A = ext1 A -> ext0 C = ext0 A -> ext1 A = ext0 B -> ext1 C = ext1 B ->
  mat_holds_on m A (stored t d) a -> mat_holds m B b -> mwritable C -> allocated m (mcells C) ->
  disjoint (mcells_on A (stored t d)) (mcells C) -> disjoint (mcells B) (mcells C) ->
  succeeds (triangular_matrix_product_left ty A t d B C) m (fun _ m' =>
    mat_holds m' C (fun i j => bigsum (ext1 A) (fun k => tri_of t d a i k * b k j)) /\ changes_only m m' (mcells C)).
Proof. exact (@trmm_left_ok). Qed.
Print Assumptions C34_trmm_left.

Theorem C34_trmm_right : forall (O : ops) ty (m : mem O) B A t d C a b,
  ring_laws O -> fits ty (ext1 C) ->
  ext0 A = ext1 A -> ext0 C = ext0 B -> ext1 B = ext0 A -> ext1 C = ext1 A ->
  mat_holds_on m A (stored t d) a -> mat_holds m B b -> mwritable C -> allocated m (mcells C) ->
  disjoint (mcells_on A (stored t d)) (mcells C) -> disjoint (mcells B) (mcells C) ->
  succeeds (triangular_matrix_product_right ty B A t d C) m (fun _ m' =>
    mat_holds m' C (fun i j => bigsum (ext1 A) (fun k => b i k * tri_of t d a k j)) /\ changes_only m m' (mcells C)).
Proof. exact (@trmm_right_ok). Qed.
Print Assumptions C34_trmm_right.

Example C34_case :
  let m : mem m2ops := hole [((1,1),(0,1)); ((9,9),(9,9)); ((1,0),(1,1)); ((2,0),(0,2)); ((0,1),(0,0)); ((1,0),(0,0)); ((0,0),(0,0)); ((0,0),(0,0))]%Z 1 in
  let A := row_major 0 2 2 in let B := row_major 4 2 1 in let C := row_major 6 2 1 in
  succeeds (triangular_matrix_product_left U8 A Lower Explicit B C) m (fun _ m' =>
    mat_holds m' C (m2m [[((0,1),(0,0))]; [((2,1),(0,1))]]%Z) /\ changes_only m m' (mcells C)).
Proof.
  intros. eapply wp_conseq.
  - apply C34_trmm_left with (a := m2m [[((1,1),(0,1)); ((0,0),(0,0))]; [((1,0),(1,1)); ((2,0),(0,2))]]%Z)
      (b := m2m [[((0,1),(0,0))]; [((1,0),(0,0))]]%Z); first [apply m2ring | concrete].
    unfold fits; split; vm_compute; congruence.
  - intros _ m' [H1 H2]; split; auto. elems2 H1.
Qed.
Example C34_right_case :
  let m : mem zops := hole [1;2; 3;4; 0;5; 0; 0;0;0;0]%Z 4 in
  let B := row_major 0 2 2 in let A := Mat 3 2 2 LLeft ADefault in let C := row_major 7 2 2 in
  succeeds (triangular_matrix_product_right I16 B A Upper ImplicitUnit C) m (fun _ m' =>
    mat_holds m' C (zm [[1;7];[3;19]]%Z) /\ changes_only m m' (mcells C)).
Proof.
  intros. eapply wp_conseq.
  - apply C34_trmm_right with (a := zm [[0;5];[0;0]]%Z) (b := zm [[1;2];[3;4]]%Z); first [apply zring | concrete].
    unfold fits; split; vm_compute; congruence.
  - intros _ m' [H1 H2]; split; auto. elems2 H1.
Qed.

(** * C35 *)
Theorem C35_left_inplace : forall (O : ops) (m : mem O) A t d C a c,
  ring_laws O ->
  ext0 A = ext1 A -> ext0 C = ext0 A ->
  mat_holds_on m A (stored t d) a -> mat_holds m C c -> mwritable C ->
  disjoint (mcells_on A (stored t d)) (mcells C) ->
  succeeds (triangular_matrix_left_product A t d C) m (fun _ m' =>
    mat_holds m' C (fun i j => bigsum (ext1 A) (fun k => tri_of t d a i k * c k j)) /\ changes_only m m' (mcells C)).
Proof. exact (@trmm_left_inplace_ok). Qed.
Print Assumptions C35_left_inplace.

Theorem C35_right_inplace : forall (O : ops) (m : mem O) A t d C a c,
  ring_laws O ->
  ext0 A = ext1 A -> ext1 C = ext0 A ->
  mat_holds_on m A (stored t d) a -> mat_holds m C c -> mwritable C ->
  disjoint (mcells_on A (stored t d)) (mcells C) ->
  succeeds (triangular_matrix_right_product A t d C) m (fun _ m' =>
    mat_holds m' C (fun i j => bigsum (ext1 A) (fun k => c i k * tri_of t d a k j)) /\ changes_only m m' (mcells C)).
Proof. exact (@trmm_right_inplace_ok). Qed.
Print Assumptions C35_right_inplace.

Example C35_case :
  let m : mem zops := hole [2;3; 0;4; 1;2; 3;4]%Z 2 in
  let A := row_major 0 2 2 in let C := row_major 4 2 2 in
  succeeds (triangular_matrix_left_product A Upper Explicit C) m (fun _ m' =>
    mat_holds m' C (zm [[11;16];[12;16]]%Z) /\ changes_only m m' (mcells C)) /\
  succeeds (triangular_matrix_right_product A Upper ImplicitUnit C) m (fun _ m' =>
    mat_holds m' C (zm [[1;5];[3;13]]%Z) /\ changes_only m m' (mcells C)).
Proof.
  intros. split; eapply wp_conseq.
  - apply C35_left_inplace with (a := zm [[2;3];[0;4]]%Z) (c := zm [[1;2];[3;4]]%Z); first [apply zring | concrete].
  - intros _ m' [H1 H2]; split; auto. elems2 H1.
  - apply C35_right_inplace with (a := zm [[2;3];[0;4]]%Z) (c := zm [[1;2];[3;4]]%Z); first [apply zring | concrete].
  - intros _ m' [H1 H2]; split; auto. elems2 H1.
Qed.

(** * C36 *)
Theorem C36_symm_left : forall (O : ops) (m : mem O) A t B C a b,
  ext0 A = ext1 A -> ext0 C = ext0 A -> ext1 A = ext0 B -> ext1 C = ext1 B ->
  mat_holds_on m A (in_tri t) a -> mat_holds m B b -> mwritable C -> allocated m (mcells C) ->
  disjoint (mcells_on A (in_tri t)) (mcells C) -> disjoint (mcells B) (mcells C) ->
  succeeds (symmetric_matrix_product_left A t B C) m (fun _ m' =>
    mat_holds m' C (fun i j => bigsum (ext1 A) (fun k => sym_of t a i k * b k j)) /\ changes_only m m' (mcells C)).
Proof. exact (@symm_left_ok). Qed.
Print Assumptions C36_symm_left.

Theorem C36_symm_right : forall (O : ops) (m : mem O) B A t C a b,
  ext0 A = ext1 A -> ext0 C = ext0 B -> ext1 B = ext0 A -> ext1 C = ext1 A ->
  mat_holds_on m A (in_tri t) a -> mat_holds m B b -> mwritable C -> allocated m (mcells C) ->
  disjoint (mcells_on A (in_tri t)) (mcells C) -> disjoint (mcells B) (mcells C) ->
  succeeds (symmetric_matrix_product_right B A t C) m (fun _ m' =>
    mat_holds m' C (fun i j => bigsum (ext1 A) (fun k => b i k * sym_of t a k j)) /\ changes_only m m' (mcells C)).
Proof. exact (@symm_right_ok). Qed.
Print Assumptions C36_symm_right.

Example C36_case :
  let m : mem zops := hole [1;0; 2;3; 10;20; 30;40; 0;0;0;0]%Z 1 in
  let A := row_major 0 2 2 in let B := row_major 4 2 2 in let C := row_major 8 2 2 in
  succeeds (symmetric_matrix_product_left A Lower B C) m (fun _ m' =>
    mat_holds m' C (zm [[70;100];[110;160]]%Z) /\ changes_only m m' (mcells C)) /\
  succeeds (symmetric_matrix_product_right B A Lower C) m (fun _ m' =>
    mat_holds m' C (zm [[50;80];[110;180]]%Z) /\ changes_only m m' (mcells C)).
Proof.
  intros. split; eapply wp_conseq.
  - apply C36_symm_left with (a := zm [[1;0];[2;3]]%Z) (b := zm [[10;20];[30;40]]%Z); concrete.
  - intros _ m' [H1 H2]; split; auto. elems2 H1.
  - apply C36_symm_right with (a := zm [[1;0];[2;3]]%Z) (b := zm [[10;20];[30;40]]%Z); concrete.
  - intros _ m' [H1 H2]; split; auto. elems2 H1.
Qed.

(** * C37 *)
(** Full statement: both products use [herm_of t a] (real part of the diagonal).  True on the left; on
    the right the code multiplies by the diagonal as stored. *)
Theorem C37_hemm_left : forall (O : ops) (m : mem O) A t B C a b,
  ext0 A = ext1 A -> ext0 C = ext0 A -> ext1 A = ext0 B -> ext1 C = ext1 B ->
  mat_holds_on m A (in_tri t) a -> mat_holds m B b -> mwritable C -> allocated m (mcells C) ->
  disjoint (mcells_on A (in_tri t)) (mcells C) -> disjoint (mcells B) (mcells C) ->
  succeeds (hermitian_matrix_product_left A t B C) m (fun _ m' =>
    mat_holds m' C (fun i j => bigsum (ext1 A) (fun k => herm_of t a i k * b k j)) /\ changes_only m m' (mcells C)).
Proof. exact (@hemm_left_ok). Qed.
Print Assumptions C37_hemm_left.

(** Holds when the stored diagonal is already real. *)
Theorem C37_hemm_right_partial : forall (O : ops) (m : mem O) B A t C a b,
  (forall i, i < ext0 A -> re (a i i) = a i i) ->
  ext0 A = ext1 A -> ext0 C = ext0 B -> ext1 B = ext0 A -> ext1 C = ext1 A ->
  mat_holds_on m A (in_tri t) a -> mat_holds m B b -> mwritable C -> allocated m (mcells C) ->
  disjoint (mcells_on A (in_tri t)) (mcells C) -> disjoint (mcells B) (mcells C) ->
  succeeds (hermitian_matrix_product_right B A t C) m (fun _ m' =>
    mat_holds m' C (fun i j => bigsum (ext1 A) (fun k => b i k * herm_of t a k j)) /\ changes_only m m' (mcells C)).
Proof. exact (@hemm_right_real_ok). Qed.
Print Assumptions C37_hemm_right_partial.

(** What the right product computes in every case: the stored diagonal enters unchanged. *)
Theorem C37_hemm_right_exact : forall (O : ops) (m : mem O) B A t C a b,
  ext0 A = ext1 A -> ext0 C = ext0 B -> ext1 B = ext0 A -> ext1 C = ext1 A ->
  mat_holds_on m A (in_tri t) a -> mat_holds m B b -> mwritable C -> allocated m (mcells C) ->
  disjoint (mcells_on A (in_tri t)) (mcells C) -> disjoint (mcells B) (mcells C) ->
  succeeds (hermitian_matrix_product_right B A t C) m (fun _ m' =>
    mat_holds m' C (fun i j => bigsum (ext1 A) (fun k =>
      b i k * (if in_tri_b t k j then a k j else conj (a j k)))) /\ changes_only m m' (mcells C)).
Proof. exact (@hemm_right_ok). Qed.
Print Assumptions C37_hemm_right_exact.
(** 1x1: B = (1), A = (5 + 7i): the Hermitian matrix is (5), the code computes 5 + 7i. *)
Theorem C37_hemm_right_refuted : exists (m : mem gops) B A t C a b,
  ext0 A = ext1 A /\ ext0 C = ext0 B /\ ext1 B = ext0 A /\ ext1 C = ext1 A /\
  mat_holds_on m A (in_tri t) a /\ mat_holds m B b /\ mwritable C /\ allocated m (mcells C) /\
  disjoint (mcells_on A (in_tri t)) (mcells C) /\ disjoint (mcells B) (mcells C) /\
  succeeds (hermitian_matrix_product_right B A t C) m (fun _ m' =>
    ~ mat_holds m' C (fun i j => bigsum (ext1 A) (fun k => b i k * herm_of t a k j))).
Proof.
  exists (mem_of [(1,0);(5,7);(0,0)]%Z), (row_major 0 1 1), (row_major 1 1 1), Upper, (row_major 2 1 1),
    (gm [[(5,7)]]%Z), (gm [[(1,0)]]%Z).
  do 10 (split; [concrete|]).
  eexists _, _. split; [reflexivity|]. intros H. destruct (H 0 0) as (v & Hv & E); [simpl; lia|simpl; lia|exact I|].
  vm_compute in Hv. injection Hv as <-. vm_compute in E. discriminate E.
Qed.
Print Assumptions C37_hemm_right_refuted.
(** On the left, the imaginary parts 50 and 60 on the diagonal have no effect. *)
Example C37_case :
  let m : mem gops := hole [(1,50);(2,3);(0,0);(4,60); (1,0);(0,1); (0,0);(0,0)]%Z 2 in
  let A := row_major 0 2 2 in let B := row_major 4 2 1 in let C := row_major 6 2 1 in
  succeeds (hermitian_matrix_product_left A Upper B C) m (fun _ m' =>
    mat_holds m' C (gm [[(-2,2)];[(2,1)]]%Z) /\ changes_only m m' (mcells C)).
Proof.
  intros. eapply wp_conseq.
  - apply C37_hemm_left with (a := gm [[(1,50);(2,3)];[(0,0);(4,60)]]%Z) (b := gm [[(1,0)];[(0,1)]]%Z); concrete.
  - intros _ m' [H1 H2]; split; auto. elems2 H1.
Qed.

(** * C38 *)
(** Full statement: with E + S B in C afterwards, and only C changed.  False: the bodies are assert(false). *)
Theorem C38_updating_refuted : exists (m : mem zops) A t B E C a b e,
  ext0 A = ext1 A /\ ext0 C = ext0 A /\ ext1 A = ext0 B /\ ext1 C = ext1 B /\ ext0 E = ext0 C /\ ext1 E = ext1 C /\
  mat_holds m A a /\ mat_holds m B b /\ mat_holds m E e /\ mwritable C /\ allocated m (mcells C) /\
  disjoint (mcells A) (mcells C) /\ disjoint (mcells B) (mcells C) /\ disjoint (mcells E) (mcells C) /\
  (* assertions enabled *)
  ~ succeeds (symmetric_matrix_product_left_upd A t B E C) m (fun _ _ => True) /\
  ~ succeeds (symmetric_matrix_product_right_upd B A t E C) m (fun _ _ => True) /\
  ~ succeeds (hermitian_matrix_product_left_upd A t B E C) m (fun _ _ => True) /\
  ~ succeeds (hermitian_matrix_product_right_upd B A t E C) m (fun _ _ => True) /\
  (* assertions disabled: C keeps its old contents, which are not E + S B *)
  ~ succeeds updating_stub_ndebug m (fun _ m' =>
      mat_holds m' C (fun i j => sum_from (e i j) 0 (ext1 A) (fun k => sym_of t a i k * b k j))).
Proof.
  exists (mem_of [2;3;4;0]%Z), (row_major 0 1 1), Upper, (row_major 1 1 1), (row_major 2 1 1), (row_major 3 1 1),
    (zm [[2]]%Z), (zm [[3]]%Z), (zm [[4]]%Z).
  do 14 (split; [concrete|]).
  do 4 (split; [intros (x & m' & H & _); discriminate H|]).
  intros (x & m' & H & K). injection H as <- <-. destruct (K 0 0) as (v & Hv & E); [simpl; lia|simpl; lia|exact I|].
  vm_compute in Hv. injection Hv as <-. vm_compute in E. discriminate E.
Qed.
Print Assumptions C38_updating_refuted.
(** What does hold: whatever the arguments, all four stop at the assertion and have changed nothing. *)
Theorem C38_updating_always_asserts_partial : forall (O : ops) (m : mem O) A t B E C,
  fails_with (symmetric_matrix_product_left_upd A t B E C) m AssertFailed (fun m' => same_memory m m') /\
  fails_with (symmetric_matrix_product_right_upd B A t E C) m AssertFailed (fun m' => same_memory m m') /\
  fails_with (hermitian_matrix_product_left_upd A t B E C) m AssertFailed (fun m' => same_memory m m') /\
  fails_with (hermitian_matrix_product_right_upd B A t E C) m AssertFailed (fun m' => same_memory m m').
Proof. intros. repeat split; exists m; split; try reflexivity; intros ?; reflexivity. Qed.
Print Assumptions C38_updating_always_asserts_partial.

(** * C39 *)
Theorem C39_syrk_alpha : forall (O : ops) (m : mem O) alpha A C t a c,
  ext0 C = ext1 C -> ext0 A = ext0 C ->
  mat_holds m A a -> mat_holds_on m C (in_tri t) c -> mwritable_on C (in_tri t) ->
  disjoint (mcells A) (mcells_on C (in_tri t)) ->
  succeeds (symmetric_matrix_rank_k_update_alpha alpha A C t) m (fun _ m' =>
    mat_holds_on m' C (in_tri t) (fun i j => sum_from (c i j) 0 (ext1 A) (fun k => alpha * a i k * a j k)) /\
    changes_only m m' (mcells_on C (in_tri t))).
Proof. exact (@syrk_alpha_ok). Qed.
Print Assumptions C39_syrk_alpha.

Theorem C39_syrk : forall (O : ops) (m : mem O) A C t a c,
  ext0 C = ext1 C -> ext0 A = ext0 C ->
  mat_holds m A a -> mat_holds_on m C (in_tri t) c -> mwritable_on C (in_tri t) ->
  disjoint (mcells A) (mcells_on C (in_tri t)) ->
  succeeds (symmetric_matrix_rank_k_update A C t) m (fun _ m' =>
    mat_holds_on m' C (in_tri t) (fun i j => sum_from (c i j) 0 (ext1 A) (fun k => a i k * a j k)) /\
    changes_only m m' (mcells_on C (in_tri t))).
Proof. exact (@syrk_ok). Qed.
Print Assumptions C39_syrk.

Theorem C39_syr2k : forall (O : ops) (m : mem O) A B C t a b c,
  ext0 C = ext1 C -> ext0 A = ext0 C -> ext0 B = ext0 C -> ext1 B = ext1 A ->
  mat_holds m A a -> mat_holds m B b -> mat_holds_on m C (in_tri t) c -> mwritable_on C (in_tri t) ->
  disjoint (mcells A) (mcells_on C (in_tri t)) -> disjoint (mcells B) (mcells_on C (in_tri t)) ->
  succeeds (symmetric_matrix_rank_2k_update A B C t) m (fun _ m' =>
    mat_holds_on m' C (in_tri t) (fun i j => sum_from (c i j) 0 (ext1 A) (fun k => a i k * b j k + b i k * a j k)) /\
    changes_only m m' (mcells_on C (in_tri t))).
Proof. exact (@syr2k_ok). Qed.
Print Assumptions C39_syr2k.

Example C39_case :
  let m : mem zops := hole [1;2;3; 4;5;6; 100;0;200;300; 1;0;0;0;1;0]%Z 7 in
  let A := row_major 0 2 3 in let B := row_major 10 2 3 in let C := row_major 6 2 2 in
  succeeds (symmetric_matrix_rank_k_update_alpha (10%Z : zops) A C Lower) m (fun _ m' =>
    mat_holds_on m' C (in_tri Lower) (zm [[240;0];[520;1070]]%Z) /\ changes_only m m' (mcells_on C (in_tri Lower))) /\
  succeeds (symmetric_matrix_rank_2k_update A B C Lower) m (fun _ m' =>
    mat_holds_on m' C (in_tri Lower) (zm [[102;0];[206;310]]%Z) /\ changes_only m m' (mcells_on C (in_tri Lower))).
Proof.
  intros. split; eapply wp_conseq.
  - apply C39_syrk_alpha with (a := zm [[1;2;3];[4;5;6]]%Z) (c := zm [[100;0];[200;300]]%Z); concrete.
  - intros _ m' [H1 H2]; split; auto. elems2 H1.
  - apply C39_syr2k with (a := zm [[1;2;3];[4;5;6]]%Z) (b := zm [[1;0;0];[0;1;0]]%Z) (c := zm [[100;0];[200;300]]%Z); concrete.
  - intros _ m' [H1 H2]; split; auto. elems2 H1.
Qed.

(** * C40 *)
Theorem C40_herk_alpha : forall (O : ops) (m : mem O) alpha A C t a c,
  ext0 C = ext1 C -> ext0 A = ext0 C ->
  mat_holds m A a -> mat_holds_on m C (in_tri t) c -> mwritable_on C (in_tri t) ->
  disjoint (mcells A) (mcells_on C (in_tri t)) ->
  succeeds (hermitian_matrix_rank_k_update_alpha alpha A C t) m (fun _ m' =>
    mat_holds_on m' C (in_tri t) (fun i j => sum_from (herm_of t c i j) 0 (ext1 A) (fun k => alpha * a i k * conj (a j k))) /\
    changes_only m m' (mcells_on C (in_tri t))).
Proof. exact (@herk_alpha_ok). Qed.
Print Assumptions C40_herk_alpha.

Theorem C40_herk : forall (O : ops) (m : mem O) A C t a c,
  ext0 C = ext1 C -> ext0 A = ext0 C ->
  mat_holds m A a -> mat_holds_on m C (in_tri t) c -> mwritable_on C (in_tri t) ->
  disjoint (mcells A) (mcells_on C (in_tri t)) ->
  succeeds (hermitian_matrix_rank_k_update A C t) m (fun _ m' =>
    mat_holds_on m' C (in_tri t) (fun i j => sum_from (herm_of t c i j) 0 (ext1 A) (fun k => a i k * conj (a j k))) /\
    changes_only m m' (mcells_on C (in_tri t))).
Proof. exact (@herk_ok). Qed.
Print Assumptions C40_herk.

Theorem C40_her2k : forall (O : ops) (m : mem O) A B C t a b c,
  ext0 C = ext1 C -> ext0 A = ext0 C -> ext0 B = ext0 C -> ext1 B = ext1 A ->
  mat_holds m A a -> mat_holds m B b -> mat_holds_on m C (in_tri t) c -> mwritable_on C (in_tri t) ->
  disjoint (mcells A) (mcells_on C (in_tri t)) -> disjoint (mcells B) (mcells_on C (in_tri t)) ->
  succeeds (hermitian_matrix_rank_2k_update A B C t) m (fun _ m' =>
    mat_holds_on m' C (in_tri t) (fun i j => sum_from (herm_of t c i j) 0 (ext1 A) (fun k => a i k * conj (b j k) + b i k * conj (a j k))) /\
    changes_only m m' (mcells_on C (in_tri t))).
Proof. exact (@her2k_ok). Qed.
Print Assumptions C40_her2k.

Theorem C40_herk_alpha_real_diagonal : forall (O : ops) (m : mem O) alpha A C t a c,
  ring_laws O -> conj_laws O -> mul_commutes O -> conj alpha = alpha ->
  ext0 C = ext1 C -> ext0 A = ext0 C ->
  mat_holds m A a -> mat_holds_on m C (in_tri t) c -> mwritable_on C (in_tri t) ->
  disjoint (mcells A) (mcells_on C (in_tri t)) ->
  succeeds (hermitian_matrix_rank_k_update_alpha alpha A C t) m (fun _ m' => real_diagonal m' C).
Proof. exact (@herk_alpha_real). Qed.
Print Assumptions C40_herk_alpha_real_diagonal.

Theorem C40_herk_real_diagonal : forall (O : ops) (m : mem O) A C t a c,
  conj_laws O ->
  ext0 C = ext1 C -> ext0 A = ext0 C ->
  mat_holds m A a -> mat_holds_on m C (in_tri t) c -> mwritable_on C (in_tri t) ->
  disjoint (mcells A) (mcells_on C (in_tri t)) ->
  succeeds (hermitian_matrix_rank_k_update A C t) m (fun _ m' => real_diagonal m' C).
Proof. exact (@herk_real). Qed.
Print Assumptions C40_herk_real_diagonal.

Theorem C40_her2k_real_diagonal : forall (O : ops) (m : mem O) A B C t a b c,
  add_laws O -> conj_laws O ->
  ext0 C = ext1 C -> ext0 A = ext0 C -> ext0 B = ext0 C -> ext1 B = ext1 A ->
  mat_holds m A a -> mat_holds m B b -> mat_holds_on m C (in_tri t) c -> mwritable_on C (in_tri t) ->
  disjoint (mcells A) (mcells_on C (in_tri t)) -> disjoint (mcells B) (mcells_on C (in_tri t)) ->
  succeeds (hermitian_matrix_rank_2k_update A B C t) m (fun _ m' => real_diagonal m' C).
Proof. exact (@her2k_real). Qed.
Print Assumptions C40_her2k_real_diagonal.

Example C40_case :
  let m : mem gops := hole [(1,1);(0,2); (5,99);(1,0);(2,0);(7,-99)]%Z 4 in
  let A := row_major 0 2 1 in let C := row_major 2 2 2 in
  succeeds (hermitian_matrix_rank_k_update A C Upper) m (fun _ m' =>
    mat_holds_on m' C (in_tri Upper) (gm [[(7,0);(3,-2)];[(0,0);(11,0)]]%Z) /\ changes_only m m' (mcells_on C (in_tri Upper))).
Proof.
  intros. eapply wp_conseq.
  - apply C40_herk with (a := gm [[(1,1)];[(0,2)]]%Z) (c := gm [[(5,99);(1,0)];[(2,0);(7,-99)]]%Z); concrete.
  - intros _ m' [H1 H2]; split; auto. elems2 H1.
Qed.
(** Why the real-diagonal theorem with alpha assumes conj alpha = alpha. *)
Theorem C40_complex_alpha_refuted : exists (alpha : gops) (A C : mat gops) (m : mem gops) a c,
  mat_holds m A a /\ mat_holds_on m C (in_tri Upper) c /\ ext0 C = ext1 C /\ ext0 A = ext0 C /\
  mwritable_on C (in_tri Upper) /\ disjoint (mcells A) (mcells_on C (in_tri Upper)) /\
  succeeds (hermitian_matrix_rank_k_update_alpha alpha A C Upper) m (fun _ m' => ~ real_diagonal m' C).
Proof.
  exists (0,1)%Z, (row_major 0 1 1), (row_major 1 1 1), (mem_of [(1,0);(0,0)]%Z), (gm [[(1,0)]]%Z), (gm [[(0,0)]]%Z).
  do 6 (split; [concrete|]).
  eexists _, _. split; [reflexivity|]. intros H. destruct (H 0) as (v & Hv & E); [simpl; lia|simpl; lia|].
  vm_compute in Hv. injection Hv as <-. vm_compute in E. discriminate E.
Qed.
Print Assumptions C40_complex_alpha_refuted.

(** * C41 *)
(** The excluded case (empty system, upper triangle, 32-bit unsigned size type) is C28's. *)
Theorem C41_trsm_left : forall (O : ops) ty (m : mem O) A t d B X a b,
  ring_laws O -> div_laws O ->
  fits ty (ext0 A) -> (ext0 A = 0 -> t = Upper -> ty <> U32) ->
  ext0 A = ext1 A -> ext0 B = ext0 A -> ext0 X = ext0 A -> ext1 X = ext1 B ->
  mat_holds_on m A (stored t d) a -> mat_holds m B b -> mwritable X -> allocated m (mcells X) ->
  disjoint (mcells_on A (stored t d)) (mcells X) -> disjoint_or_aligned_m B X ->
  (d = Explicit -> forall i, i < ext0 A -> a i i <> zero) ->
  succeeds (triangular_matrix_matrix_left_solve ty A t d B X) m (fun _ m' =>
    (exists x, mat_holds m' X x /\
      forall i j, i < ext0 X -> j < ext1 X -> bigsum (ext0 A) (fun k => tri_of t d a i k * x k j) = b i j)
    /\ changes_only m m' (mcells X)).
Proof. exact (@trsm_left_field_ok). Qed.
Print Assumptions C41_trsm_left.

(** The same for any (non-commutative) ring in which the used quotients are exact. *)
Theorem C41_trsm_left_ring : forall (O : ops) ty (m : mem O) A t d B X a b,
  ring_laws O ->
  fits ty (ext0 A) -> (ext0 A = 0 -> t = Upper -> ty <> U32) ->
  ext0 A = ext1 A -> ext0 B = ext0 A -> ext0 X = ext0 A -> ext1 X = ext1 B ->
  mat_holds_on m A (stored t d) a -> mat_holds m B b -> mwritable X -> allocated m (mcells X) ->
  disjoint (mcells_on A (stored t d)) (mcells X) -> disjoint_or_aligned_m B X ->
  div_ok div d (ext0 A) a ->
  succeeds (triangular_matrix_matrix_left_solve ty A t d B X) m (fun _ m' =>
    (exists x, mat_holds m' X x /\
      forall i j, i < ext0 X -> j < ext1 X -> bigsum (ext0 A) (fun k => tri_of t d a i k * x k j) = b i j)
    /\ changes_only m m' (mcells X)).
Proof. exact (@trsm_left_ok). Qed.
Print Assumptions C41_trsm_left_ring.

(** For every memory: the same run (result, memory, failure) as solving column by column with triangular_matrix_vector_solve. *)
Theorem C41_columns : forall (O : ops) ty (A : mat O) t d B X,
  ext0 A = ext1 A -> ext1 B <= ext1 X ->
  same_effect (triangular_matrix_matrix_left_solve ty A t d B X)
    (for_range 0 (ext1 B) (fun k => triangular_matrix_vector_solve ty A t d (col B k) (col X k))).
Proof. exact (@trsm_left_columns). Qed.
Print Assumptions C41_columns.

Example C41_case :
  let q (a : Z) : qops := Q2Qc (inject_Z a) in
  let m : mem qops := hole [q 2; q 3; q 0; q 4; q 1; q 2; q 3; q 4]%Z 2 in
  let A := row_major 0 2 2 in let X := col_major 4 2 2 in
  succeeds (triangular_matrix_matrix_left_solve U16 A Upper Explicit X X) m (fun _ m' =>
    (exists x, mat_holds m' X x /\
      forall i j, i < ext0 X -> j < ext1 X -> bigsum (ext0 A) (fun k => tri_of Upper Explicit (melt [[q 2; q 3]; [q 0; q 4]]%Z) i k * x k j)
        = melt [[q 1; q 3]; [q 2; q 4]]%Z i j)
    /\ changes_only m m' (mcells X)).
Proof.
  intros. apply C41_trsm_left; first [apply qring | apply qdiv | concrete].
  - unfold fits; split; vm_compute; congruence.
  - discriminate.
  - intros _ i Hi. destruct i as [|[|i]]; [| |simpl in Hi; lia]; intros E; apply (f_equal this) in E; discriminate E.
Qed.

(** * C42 *)
(** For the lower triangle the extent has to be representable in the signed counterpart of the index type; C43 is about the rest. *)
Theorem C42_trsm_right : forall (O : ops) ty (m : mem O) A t d B X a b,
  ring_laws O -> div_laws O ->
  (t = Lower -> fits (make_signed ty) (ext0 A)) ->
  ext0 A = ext1 A -> ext1 B = ext0 A -> ext1 X = ext0 A -> ext0 X = ext0 B ->
  mat_holds_on m A (stored t d) a -> mat_holds m B b -> mwritable X -> allocated m (mcells X) ->
  disjoint (mcells_on A (stored t d)) (mcells X) -> disjoint_or_aligned_m B X ->
  (d = Explicit -> forall i, i < ext0 A -> a i i <> zero) ->
  succeeds (triangular_matrix_matrix_right_solve ty A t d B X) m (fun _ m' =>
    (exists x, mat_holds m' X x /\
      forall i j, i < ext0 X -> j < ext1 X -> bigsum (ext0 A) (fun k => x i k * tri_of t d a k j) = b i j)
    /\ changes_only m m' (mcells X)).
Proof. exact (@trsm_right_field_ok). Qed.
Print Assumptions C42_trsm_right.

Theorem C42_trsm_right_ring : forall (O : ops) ty (m : mem O) A t d B X a b,
  ring_laws O ->
  (t = Lower -> fits (make_signed ty) (ext0 A)) ->
  ext0 A = ext1 A -> ext1 B = ext0 A -> ext1 X = ext0 A -> ext0 X = ext0 B ->
  mat_holds_on m A (stored t d) a -> mat_holds m B b -> mwritable X -> allocated m (mcells X) ->
  disjoint (mcells_on A (stored t d)) (mcells X) -> disjoint_or_aligned_m B X ->
  div_ok_r div d (ext0 A) a ->
  succeeds (triangular_matrix_matrix_right_solve ty A t d B X) m (fun _ m' =>
    (exists x, mat_holds m' X x /\
      forall i j, i < ext0 X -> j < ext1 X -> bigsum (ext0 A) (fun k => x i k * tri_of t d a k j) = b i j)
    /\ changes_only m m' (mcells X)).
Proof. exact (@trsm_right_ok). Qed.
Print Assumptions C42_trsm_right_ring.

Example C42_case :
  let q (a : Z) : qops := Q2Qc (inject_Z a) in
  let m : mem qops := hole [q 2; q 0; q 3; q 4; q 1; q 2; q 3; q 4]%Z 1 in
  let A := row_major 0 2 2 in let X := row_major 4 2 2 in
  succeeds (triangular_matrix_matrix_right_solve U8 A Lower Explicit X X) m (fun _ m' =>
    (exists x, mat_holds m' X x /\
      forall i j, i < ext0 X -> j < ext1 X -> bigsum (ext0 A) (fun k => x i k * tri_of Lower Explicit (melt [[q 2; q 0]; [q 3; q 4]]%Z) k j)
        = melt [[q 1; q 2]; [q 3; q 4]]%Z i j)
    /\ changes_only m m' (mcells X)).
Proof.
  intros. apply C42_trsm_right; first [apply qring | apply qdiv | concrete].
  - intros _. unfold fits; split; vm_compute; congruence.
  - intros _ i Hi. destruct i as [|[|i]]; [| |simpl in Hi; lia]; intros E; apply (f_equal this) in E; discriminate E.
Qed.

(** The overload with a side tag: A X = B for left_side, X A = B for right_side. *)
Theorem C42_trsm_side : forall (O : ops) ty (m : mem O) A t d s B X a b,
  ring_laws O -> div_laws O ->
  (s = LeftSide -> fits ty (ext0 A) /\ (ext0 A = 0 -> t = Upper -> ty <> U32)) ->
  (s = RightSide -> t = Lower -> fits (make_signed ty) (ext0 A)) ->
  ext0 A = ext1 A -> (match s with LeftSide => ext0 B | RightSide => ext1 B end) = ext0 A ->
  ext0 X = ext0 B -> ext1 X = ext1 B ->
  mat_holds_on m A (stored t d) a -> mat_holds m B b -> mwritable X -> allocated m (mcells X) ->
  disjoint (mcells_on A (stored t d)) (mcells X) -> disjoint_or_aligned_m B X ->
  (d = Explicit -> forall i, i < ext0 A -> a i i <> zero) ->
  succeeds (triangular_matrix_matrix_solve ty A t d s B X) m (fun _ m' =>
    (exists x, mat_holds m' X x /\
      forall i j, i < ext0 X -> j < ext1 X ->
        match s with
        | LeftSide => bigsum (ext0 A) (fun k => tri_of t d a i k * x k j)
        | RightSide => bigsum (ext0 A) (fun k => x i k * tri_of t d a k j)
        end = b i j)
    /\ changes_only m m' (mcells X)).
Proof.
  intros O ty m A t d s B X a b HR HD HL HRt Hsq Hs H0 H1 HA HB HW Hall Hdis Hal Hd.
  destruct s.
  - destruct (HL eq_refl) as [Hf He]. apply C41_trsm_left; auto; congruence.
  - apply C42_trsm_right; auto; congruence.
Qed.
Print Assumptions C42_trsm_side.

Example C42_side_case :
  let q (a : Z) : qops := Q2Qc (inject_Z a) in
  let m : mem qops := hole [q 2; q 0; q 3; q 4; q 1; q 2; q 3; q 4]%Z 1 in
  let A := row_major 0 2 2 in let X := row_major 4 2 2 in
  forall s, succeeds (triangular_matrix_matrix_solve U64 A Lower Explicit s X X) m (fun _ m' =>
    (exists x, mat_holds m' X x /\
      forall i j, i < ext0 X -> j < ext1 X ->
        match s with
        | LeftSide => bigsum (ext0 A) (fun k => tri_of Lower Explicit (melt [[q 2; q 0]; [q 3; q 4]]%Z) i k * x k j)
        | RightSide => bigsum (ext0 A) (fun k => x i k * tri_of Lower Explicit (melt [[q 2; q 0]; [q 3; q 4]]%Z) k j)
        end = melt [[q 1; q 2]; [q 3; q 4]]%Z i j)
    /\ changes_only m m' (mcells X)).
Proof.
  intros. apply C42_trsm_side; first [apply qring | apply qdiv | concrete].
  - intros _. split; [unfold fits; split; vm_compute; congruence|discriminate].
  - intros _ _. unfold fits; split; vm_compute; congruence.
  - destruct s; reflexivity.
  - intros _ i Hi. destruct i as [|[|i]]; [| |simpl in Hi; lia]; intros E; apply (f_equal this) in E; discriminate E.
Qed.

(** * C43 *)
(** Full statement: C42 with [fits ty (ext0 A)] as the only condition on the index type. *)
Theorem C43_index_types_partial : forall (O : ops) ty (m : mem O) A t d B X a b,
  ring_laws O -> div_laws O ->
  (* every extent for the upper triangle, for signed and for 64-bit index types; else up to the signed maximum *)
  fits ty (ext0 A) ->
  (t = Upper \/ In ty [I8; I16; I32; I64; U64] \/ (Z.of_nat (ext0 A) <= max_of (make_signed ty))%Z) ->
  ext0 A = ext1 A -> ext1 B = ext0 A -> ext1 X = ext0 A -> ext0 X = ext0 B ->
  mat_holds_on m A (stored t d) a -> mat_holds m B b -> mwritable X -> allocated m (mcells X) ->
  disjoint (mcells_on A (stored t d)) (mcells X) -> disjoint_or_aligned_m B X ->
  (d = Explicit -> forall i, i < ext0 A -> a i i <> zero) ->
  succeeds (triangular_matrix_matrix_right_solve ty A t d B X) m (fun _ m' =>
    (exists x, mat_holds m' X x /\
      forall i j, i < ext0 X -> j < ext1 X -> bigsum (ext0 A) (fun k => x i k * tri_of t d a k j) = b i j)
    /\ changes_only m m' (mcells X)).
Proof. exact (@trsm_right_index_ok). Qed.
Print Assumptions C43_index_types_partial.
(** The remaining extent between the theorem above and [C43_narrow_unsigned_does_nothing], one more than the signed
    maximum, is solved correctly for unsigned 8- and 16-bit index types.  (For a 32-bit one the conversion gives the
    least int and the code subtracts one from it, which is undefined in C++; the model wraps around, so nothing is
    claimed.) *)
Theorem C43_boundary_partial : forall (O : ops) ty (m : mem O) A t d B X a b,
  ring_laws O -> div_laws O ->
  ty = U8 \/ ty = U16 -> (Z.of_nat (ext0 A) <= max_of (make_signed ty) + 1)%Z ->
  ext0 A = ext1 A -> ext1 B = ext0 A -> ext1 X = ext0 A -> ext0 X = ext0 B ->
  mat_holds_on m A (stored t d) a -> mat_holds m B b -> mwritable X -> allocated m (mcells X) ->
  disjoint (mcells_on A (stored t d)) (mcells X) -> disjoint_or_aligned_m B X ->
  (d = Explicit -> forall i, i < ext0 A -> a i i <> zero) ->
  succeeds (triangular_matrix_matrix_right_solve ty A t d B X) m (fun _ m' =>
    (exists x, mat_holds m' X x /\
      forall i j, i < ext0 X -> j < ext1 X -> bigsum (ext0 A) (fun k => x i k * tri_of t d a k j) = b i j)
    /\ changes_only m m' (mcells X)).
Proof. exact (@trsm_right_boundary_ok). Qed.
Print Assumptions C43_boundary_partial.
(** 128x128 unit lower triangular (identity) matrix, unsigned char extents. *)
Example C43_boundary_case : forall m : mem qops, m 0 = Some (zero : qops) -> m 1 = Some (one : qops) -> (forall i, i < 128 -> m (S (S i)) <> None) ->
  succeeds (triangular_matrix_matrix_right_solve U8 (Mat 0 128 128 (LStride 0 0) ADefault) Lower ImplicitUnit
      (Mat 1 1 128 (LStride 0 0) ADefault) (Mat 2 1 128 LRight ADefault)) m (fun _ m' =>
    (exists x, mat_holds m' (Mat 2 1 128 LRight ADefault : mat qops) x /\
      forall i j, i < 1 -> j < 128 -> bigsum 128 (fun k => x i k * @tri_of qops Lower ImplicitUnit (fun _ _ => zero) k j) = one)
    /\ changes_only m m' (mcells (Mat 2 1 128 LRight ADefault : mat qops))).
Proof.
  intros m H0 H1 H2.
  apply C43_boundary_partial with (b := fun _ _ => one); try reflexivity; try (left; reflexivity); try discriminate;
    try apply qring; try apply qdiv.
  - intros i j _ _ _. exists (zero : qops). split; [|reflexivity]. unfold maddr; simpl. rewrite !Nat.mul_0_r. exact H0.
  - intros i j _ _ _. exists (one : qops). split; [|reflexivity]. unfold maddr; simpl. rewrite !Nat.mul_0_r. exact H1.
  - split; [reflexivity|]; intros i j i' j' Hi Hj Hi' Hj' _ _ E; unfold maddr in E; cbn -[Nat.mul] in *; lia.
  - intros c (i & j & Hi & Hj & _ & ->). cbn -[Nat.mul] in *. unfold maddr. cbn -[Nat.mul Nat.add].
    replace (2 + (i * 128 + j))%nat with (S (S j)) by lia. apply H2. lia.
  - intros c (i & j & _ & _ & _ & ->) (i' & j' & _ & _ & _ & E); unfold maddr in E; cbn -[Nat.mul] in E; lia.
  - left. intros c (i & j & _ & _ & _ & ->) (i' & j' & _ & _ & _ & E); unfold maddr in E; cbn -[Nat.mul] in E; lia.
Qed.
(** 1x200 right-hand side (all ones), 200x200 unit lower triangular (identity) matrix, unsigned char
    extents: the call returns normally and X still holds zeros. *)
Theorem C43_index_types_refuted : exists (m : mem zops) A B X a b,
  fits U8 (ext0 A) /\ ext0 A = ext1 A /\ ext1 B = ext0 A /\ ext1 X = ext0 A /\ ext0 X = ext0 B /\
  mat_holds_on m A (stored Lower ImplicitUnit) a /\ mat_holds m B b /\ mwritable X /\ allocated m (mcells X) /\
  disjoint (mcells_on A (stored Lower ImplicitUnit)) (mcells X) /\ disjoint (mcells B) (mcells X) /\
  succeeds (triangular_matrix_matrix_right_solve U8 A Lower ImplicitUnit B X) m (fun _ m' =>
    ~ exists x, mat_holds m' X x /\
        forall i j, i < ext0 X -> j < ext1 X -> bigsum (ext0 A) (fun k => x i k * tri_of Lower ImplicitUnit a k j) = b i j).
Proof.
  exists (fun a : nat => Some (if Nat.eqb a 1 then 1%Z else 0%Z)),
    (Mat 0 200 200 (LStride 0 0) ADefault), (Mat 1 1 200 (LStride 0 0) ADefault), (Mat 2 1 200 LRight ADefault),
    (fun _ _ => 0%Z), (fun _ _ => 1%Z).
  split; [split; vm_compute; congruence|].
  do 4 (split; [reflexivity|]).
  split; [intros i j _ _ _; exists 0%Z; split; [|reflexivity]; unfold maddr; simpl; rewrite !Nat.mul_0_r; reflexivity|].
  split; [intros i j _ _ _; exists 1%Z; split; [|reflexivity]; unfold maddr; simpl; rewrite !Nat.mul_0_r; reflexivity|].
  split; [split; [reflexivity|]; intros i j i' j' Hi Hj Hi' Hj' _ _ E; unfold maddr in E; cbn -[Nat.mul] in *; lia|].
  split; [intros c _; discriminate|].
  split; [intros c (i & j & _ & _ & _ & ->) (i' & j' & _ & _ & _ & E); unfold maddr in E; cbn -[Nat.mul] in E; lia|].
  split; [intros c (i & j & _ & _ & _ & ->) (i' & j' & _ & _ & _ & E); unfold maddr in E; cbn -[Nat.mul] in E; lia|].
  eexists _, _. split.
  { apply trsm_right_narrow; [left; reflexivity|]. split; vm_compute; congruence. }
  intros (x & Hx & H). specialize (H 0 0 ltac:(simpl; lia) ltac:(simpl; lia)).
  enough (bigsum 200 (fun k => (x 0 k * @tri_of zops Lower ImplicitUnit (fun _ _ => 0%Z) k 0 : zops)) = 0%Z) as K.
  { simpl ext0 in H. rewrite K in H. discriminate H. }
  unfold bigsum. rewrite (@sum_from_ext zops zero 0 200 _ (fun _ => zero)).
  - apply sum_zeros; [apply zring|auto].
  - intros k Hk. destruct (Hx 0 k) as (v & Hv & <-); [simpl; lia|simpl; lia|exact I|].
    unfold maddr in Hv. cbn -[Nat.mul Nat.eqb] in Hv. injection Hv as <-. reflexivity.
Qed.
Print Assumptions C43_index_types_refuted.
(** Every extent of the upper half (except its first value) of an unsigned 8-, 16- or 32-bit index type: nothing at all is written. *)
Theorem C43_narrow_unsigned_does_nothing : forall (O : ops) ty (m : mem O) A d B X,
  (ty = U8 \/ ty = U16 \/ ty = U32) ->
  (max_of (make_signed ty) + 1 < Z.of_nat (ext1 A) <= max_of ty)%Z ->
  run (triangular_matrix_matrix_right_solve ty A Lower d B X) m = Ok tt m.
Proof. exact (@trsm_right_narrow). Qed.
Print Assumptions C43_narrow_unsigned_does_nothing.

Example C43_case : forall m : mem qops,
  run (triangular_matrix_matrix_right_solve U8 (row_major 0 129 129) Lower Explicit (row_major 0 2 129) (row_major 0 2 129)) m = Ok tt m.
Proof. intros. apply C43_narrow_unsigned_does_nothing; [left; reflexivity|]. split; vm_compute; congruence. Qed.

(** * C28, matrix versions *)
Theorem C28_empty_left_solve_partial : forall (O : ops) ty (m : mem O) A t d B X,
  ext0 A = 0 -> (0 < ext1 B -> t = Upper -> ty <> U32) ->
  run (triangular_matrix_matrix_left_solve ty A t d B X) m = Ok tt m.
Proof. exact (@trsm_left_empty_ok). Qed.
Print Assumptions C28_empty_left_solve_partial.

Theorem C28_empty_right_solve : forall (O : ops) ty (m : mem O) A t d B X,
  ext1 A = 0 -> run (triangular_matrix_matrix_right_solve ty A t d B X) m = Ok tt m.
Proof. exact (@trsm_right_empty_ok). Qed.
Print Assumptions C28_empty_right_solve.

Theorem C28_empty_left_solve_u32_fails : forall (O : ops) (m : mem O) A d B X,
  ext0 A = 0 -> ext0 B = 0 -> 0 < ext1 B ->
  run (triangular_matrix_matrix_left_solve U32 A Upper d B X) m = Err OutOfBounds m.
Proof. exact (@trsm_left_empty_u32). Qed.
Print Assumptions C28_empty_left_solve_u32_fails.

Example C28_matrix_case : forall m : mem qops,
  run (triangular_matrix_matrix_left_solve U64 (row_major 0 0 0) Upper Explicit (row_major 0 0 3) (row_major 0 0 3)) m = Ok tt m /\
  run (triangular_matrix_matrix_left_solve U32 (row_major 0 0 0) Upper Explicit (row_major 0 0 3) (row_major 0 0 3)) m = Err OutOfBounds m /\
  run (triangular_matrix_matrix_right_solve U32 (row_major 0 0 0) Lower Explicit (row_major 0 3 0) (row_major 0 3 0)) m = Ok tt m.
Proof.
  intros. split; [apply C28_empty_left_solve_partial; [reflexivity|discriminate]|].
  split; [apply C28_empty_left_solve_u32_fails; simpl; auto; lia|apply C28_empty_right_solve; reflexivity].
Qed.

(** * C53 *)
Theorem C53_left_solve_after_product : forall (O : ops) ty (m : mem O) A t d C a c,
  ring_laws O -> div_laws O ->
  fits ty (ext0 A) -> (ext0 A = 0 -> t = Upper -> ty <> U32) ->
  ext0 A = ext1 A -> ext0 C = ext0 A ->
  mat_holds_on m A (stored t d) a -> mat_holds m C c -> mwritable C ->
  disjoint (mcells_on A (stored t d)) (mcells C) ->
  (d = Explicit -> forall i, i < ext0 A -> a i i <> zero) ->
  succeeds (bind (triangular_matrix_left_product A t d C)
              (fun _ => triangular_matrix_matrix_left_solve ty A t d C C)) m (fun _ m' => same_memory m m').
Proof. exact (@trsm_after_trmm_left). Qed.
Print Assumptions C53_left_solve_after_product.

Theorem C53_left_product_after_solve : forall (O : ops) ty (m : mem O) A t d C a c,
  ring_laws O -> div_laws O ->
  fits ty (ext0 A) -> (ext0 A = 0 -> t = Upper -> ty <> U32) ->
  ext0 A = ext1 A -> ext0 C = ext0 A ->
  mat_holds_on m A (stored t d) a -> mat_holds m C c -> mwritable C ->
  disjoint (mcells_on A (stored t d)) (mcells C) ->
  (d = Explicit -> forall i, i < ext0 A -> a i i <> zero) ->
  succeeds (bind (triangular_matrix_matrix_left_solve ty A t d C C)
              (fun _ => triangular_matrix_left_product A t d C)) m (fun _ m' => same_memory m m').
Proof. exact (@trmm_after_trsm_left). Qed.
Print Assumptions C53_left_product_after_solve.

Theorem C53_right_solve_after_product : forall (O : ops) ty (m : mem O) A t d C a c,
  ring_laws O -> div_laws O ->
  (t = Lower -> fits (make_signed ty) (ext0 A)) ->
  ext0 A = ext1 A -> ext1 C = ext0 A ->
  mat_holds_on m A (stored t d) a -> mat_holds m C c -> mwritable C ->
  disjoint (mcells_on A (stored t d)) (mcells C) ->
  (d = Explicit -> forall i, i < ext0 A -> a i i <> zero) ->
  succeeds (bind (triangular_matrix_right_product A t d C)
              (fun _ => triangular_matrix_matrix_right_solve ty A t d C C)) m (fun _ m' => same_memory m m').
Proof. exact (@trsm_after_trmm_right). Qed.
Print Assumptions C53_right_solve_after_product.

Theorem C53_right_product_after_solve : forall (O : ops) ty (m : mem O) A t d C a c,
  ring_laws O -> div_laws O ->
  (t = Lower -> fits (make_signed ty) (ext0 A)) ->
  ext0 A = ext1 A -> ext1 C = ext0 A ->
  mat_holds_on m A (stored t d) a -> mat_holds m C c -> mwritable C ->
  disjoint (mcells_on A (stored t d)) (mcells C) ->
  (d = Explicit -> forall i, i < ext0 A -> a i i <> zero) ->
  succeeds (bind (triangular_matrix_matrix_right_solve ty A t d C C)
              (fun _ => triangular_matrix_right_product A t d C)) m (fun _ m' => same_memory m m').
Proof. exact (@trmm_after_trsm_right). Qed.
Print Assumptions C53_right_product_after_solve.

Example C53_case :
  let q (a : Z) : qops := Q2Qc (inject_Z a) in
  let m : mem qops := hole [q 2; q 3; q 0; q 4; q 1; q 2; q 3; q 4]%Z 2 in
  let A := row_major 0 2 2 in let C := row_major 4 2 2 in
  succeeds (bind (triangular_matrix_left_product A Upper Explicit C)
              (fun _ => triangular_matrix_matrix_left_solve I32 A Upper Explicit C C)) m (fun _ m' => same_memory m m').
Proof.
  intros. apply C53_left_solve_after_product with (a := melt [[q 2; q 3]; [q 0; q 4]]%Z) (c := melt [[q 1; q 2]; [q 3; q 4]]%Z);
  first [apply qring | apply qdiv | concrete].
  - unfold fits; split; vm_compute; congruence.
  - discriminate.
  - intros _ i Hi. destruct i as [|[|i]]; [| |simpl in Hi; lia]; intros E; apply (f_equal this) in E; discriminate E.
Qed.

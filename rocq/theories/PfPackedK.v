(** Packed matrices: transposition, the tag of the other triangle, Kokkos overloads. *)
From Coq Require Import List Arith ZArith Lia Bool.
From Verif Require Import Mem Scalar View Spec LayoutG Packed SpecPacked Wp Loops Sums Blas1 Blas2 Blas3 Par KK KKBlas PfBlas2 PfPacked.
Import ListNotations.
Set Implicit Arguments.
Local Open Scope sc_scope.

Lemma mapping_ok : forall t o n,
  length (packed_elems t o n) = (n * (n + 1) / 2)%nat /\
  (forall i j, i < n -> j < n -> in_tri t i j -> nth_error (packed_elems t o n) (packed_off t o n i j) = Some (i, j)) /\
  (forall i j, i < n -> j < n -> packed_off t o n i j = packed_off t o n j i) /\
  (forall k i j, nth_error (packed_elems t o n) k = Some (i, j) -> i < n /\ j < n /\ in_tri t i j /\ k = packed_off t o n i j).
Proof. intros. split; [apply elems_len|]. split; [intros; apply off_nth; auto|]. split; [intros; apply off_sym|]. intros k i j H. exact (nth_off t o n k H). Qed.
Lemma elems_transposed : forall t o n, packed_elems (opposite_triangle t) (opposite o) n = map (fun p => (snd p, fst p)) (packed_elems t o n).
Proof.
  intros. unfold packed_elems. rewrite !flat_map_concat_map, concat_map, map_map. f_equal. apply map_ext. intros l. rewrite map_map.
  destruct t, o; reflexivity.
Qed.
Lemma transposed_ok : forall (O : ops) base n t o (c : acc O),
  let A := packed_mat base n t o c in let B := packed_transposed base n t o c in
  ext0 B = ext1 A /\ ext1 B = ext0 A /\ macc B = macc A /\
  (forall i j, maddr B j i = maddr A i j) /\
  (forall i j, nth_error (packed_elems t o n) i = Some j <->
     nth_error (packed_elems (opposite_triangle t) (opposite o) n) i = Some (snd j, fst j)).
Proof.
  intros. repeat (split; [reflexivity|]). split.
  - intros i j. change ((base + packed_off (opposite_triangle t) (opposite o) n j i = base + packed_off t o n i j)%nat). rewrite off_transposed. reflexivity.
  - intros i [j k]. rewrite elems_transposed, nth_error_map. destruct (nth_error (packed_elems t o n) i) as [[p q]|]; simpl;
      split; intros H; try discriminate; inversion H; reflexivity.
Qed.

Section Other.
Context {O : ops}.
Lemma other_symv : forall (m : mem O) base n o t x y a f,
  vext x = n -> vext y = n ->
  array_holds m base (packed_elems t o n) a -> vec_holds m x f -> vwritable y -> allocated m (vcells y) ->
  disjoint (cells_from base (n * (n + 1) / 2)) (vcells y) -> disjoint (vcells x) (vcells y) ->
  succeeds (symmetric_matrix_vector_product (packed_mat base n t o ADefault) (opposite_triangle t) x y) m (fun _ m' =>
    vec_holds m' y (fun i => bigsum n (fun j => sym_of t a i j * f j)) /\ changes_only m m' (vcells y)).
Proof.
  intros m base n o t x y a f Hx Hy HA Hf Hw Hal HdA HdX. eapply wp_conseq.
  { apply symv_ok with (a := fun i j => a j i) (f := f); auto.
    - apply packed_other; auto.
    - intros c H1 H2. apply packed_other_cells in H1. apply (HdA c); auto. }
  intros [] m' [K1 K2]. split; auto. intros i Hi. destruct (K1 i Hi) as (v & Hv & E). exists v. split; auto. rewrite E.
  unfold bigsum. apply sum_from_ext. intros. rewrite sym_other. reflexivity.
Qed.
Lemma other_hemv : forall (m : mem O) base n o t x y a f,
  vext x = n -> vext y = n ->
  array_holds m base (packed_elems t o n) a -> vec_holds m x f -> vwritable y -> allocated m (vcells y) ->
  disjoint (cells_from base (n * (n + 1) / 2)) (vcells y) -> disjoint (vcells x) (vcells y) ->
  succeeds (hermitian_matrix_vector_product (packed_mat base n t o ADefault) (opposite_triangle t) x y) m (fun _ m' =>
    vec_holds m' y (fun i => bigsum n (fun j => herm_of t a j i * f j)) /\ changes_only m m' (vcells y)).
Proof.
  intros m base n o t x y a f Hx Hy HA Hf Hw Hal HdA HdX. eapply wp_conseq.
  { apply hemv_ok with (a := fun i j => a j i) (f := f); auto.
    - apply packed_other; auto.
    - intros c H1 H2. apply packed_other_cells in H1. apply (HdA c); auto. }
  intros [] m' [K1 K2]. split; auto. intros i Hi. destruct (K1 i Hi) as (v & Hv & E). exists v. split; auto. rewrite E.
  unfold bigsum. apply sum_from_ext. intros. rewrite herm_other. reflexivity.
Qed.
End Other.

Lemma kokkos_packed : forall (O : ops) base n t o t' d alpha (x y : vec O) (B C : mat O),
  let P := packed_mat base n t o ADefault in
  vext x = n -> vext y = n -> ext0 B = n -> ext1 B = n -> ext0 C = n -> ext1 C = n -> mlay B = LRight -> mlay C = LRight ->
  kk_symmetric_matrix_rank_1_update x P t' = PIllFormed /\
  kk_hermitian_matrix_rank_1_update x P t' = PIllFormed /\
  kk_symmetric_matrix_rank_2_update x y P t' = PIllFormed /\
  kk_hermitian_matrix_rank_2_update x y P t' = PIllFormed /\
  kk_symmetric_matrix_rank_k_update alpha B P t' = PIllFormed /\
  kk_hermitian_matrix_rank_k_update alpha B P t' = PIllFormed /\
  kk_symmetric_matrix_rank_2k_update B C P t' = PIllFormed /\
  kk_hermitian_matrix_rank_2k_update B C P t' = PIllFormed /\
  kk_symmetric_matrix_left_product P t' B C = PIllFormed /\
  kk_symmetric_matrix_right_product P t' B C = PIllFormed /\
  kk_hermitian_matrix_left_product P t' B C = PIllFormed /\
  kk_hermitian_matrix_right_product P t' B C = PIllFormed /\
  kk_triangular_matrix_left_product_unit P t' B C = PIllFormed /\
  kk_triangular_matrix_right_product_unit P t' B C = PIllFormed /\
  kb_triangular_matrix_vector_solve P t' d x y = KIllFormed /\
  kb_triangular_matrix_matrix_left_solve P t' d B C = KIllFormed /\
  kb_triangular_matrix_matrix_right_solve P t' d B C = KIllFormed.
Proof.
  intros O base n t o t' d alpha x y B C P Hx Hy HB0 HB1 HC0 HC1 LB LC. subst P.
  repeat match goal with |- _ /\ _ => split end;
    cbv [kk_symmetric_matrix_rank_1_update kk_hermitian_matrix_rank_1_update kk_symmetric_matrix_rank_2_update kk_hermitian_matrix_rank_2_update
      kk_symmetric_matrix_rank_k_update kk_hermitian_matrix_rank_k_update kk_symmetric_matrix_rank_2k_update kk_hermitian_matrix_rank_2k_update
      kk_symmetric_matrix_left_product kk_symmetric_matrix_right_product kk_hermitian_matrix_left_product kk_hermitian_matrix_right_product
      kk_sy_he_left kk_sy_he_right kk_triangular_matrix_left_product_unit kk_triangular_matrix_right_product_unit kk_product
      kb_triangular_matrix_vector_solve kb_triangular_matrix_matrix_left_solve kb_triangular_matrix_matrix_right_solve
      check_left check_right check_eq kcheck packed_mat]; cbn [ext0 ext1];
    rewrite ?Hx, ?Hy, ?HB0, ?HB1, ?HC0, ?HC1, ?Nat.eqb_refl; unfold view_m, kview; rewrite ?LB, ?LC; reflexivity.
Qed.

(** Proofs of C84: every inline algorithm, with the counters of the source, is the algorithm of the model.
    The statements are generated from the signatures in Counter.v. *)
From Coq Require Import List Arith NArith ZArith Bool Lia.
From Verif Require Import Mem Scalar View Spec Idx Ints SpecI SpecI2 Wp PfInts PfBlas3 SpecCt Blas1 Blas2 Blas3 Norm Counter PfCounter.
Import ListNotations.
Set Implicit Arguments.
Local Open Scope Z_scope.

Create HintDb counter.
Global Hint Resolve rep_common_type_l rep_common_type_r rep_unsigned width_common_type width_unsigned : counter.

(** Facts about the extents: representable in the counter type. *)
Ltac facts T :=
  repeat match goal with
  | R : representable ?t (Z.of_nat ?n) |- _ =>
      lazymatch t with T => fail | IK true 64 => fail | _ => idtac end;
      match goal with
      | _ : representable T (Z.of_nat n) |- _ => fail 1
      | _ => assert (representable T (Z.of_nat n)) by (subst T; cbn [common_types fold_left]; auto 12 using Zle_0_nat with counter)
      end
  end.
Ltac prep :=
  unfold vspan, mspan, extent_of, in_ptrdiff; intros;
  repeat match goal with H : _ /\ _ |- _ => destruct H end;
  unfold c_zero_rows, c_copy_rows, c_tri_mv_loop, c_trmv_loop, c_triangle_column, zero_rows, copy_rows, tri_mv_loop, trmv_loop, tri_lo, tri_hi, is_explicit, k_lower; cbv zeta;
  try match goal with t : triangle |- _ => destruct t end; try match goal with d : diagonal |- _ => destruct d end; cbv iota;
  lazymatch goal with
  | E : kind_of ?z = common_types ?t ?l |- _ =>
      let T := fresh "T" in let W := fresh "WT" in let E' := fresh "ET" in
      assert (W : 1 <= iwidth (common_types t l)) by (cbn [common_types fold_left]; auto 12 with counter);
      remember (common_types t l) as T; facts T; assert (E' := eq_sym E); rewrite E
  | |- context [common_types ?t ?l] =>
      let T := fresh "T" in let W := fresh "WT" in
      assert (W : 1 <= iwidth (common_types t l)) by (cbn [common_types fold_left]; auto 12 with counter);
      remember (common_types t l) as T; facts T
  end.
(** Side conditions *)
Ltac rep := first [assumption | match goal with R : representable ?t (Z.of_nat ?e) |- representable ?t _ =>
  solve [apply rep_le with (z := Z.of_nat e); [assumption|lia|assumption]] end | apply zero_rep; assumption
  | match goal with E : wrap _ _ = Z.of_nat ?n |- representable _ (Z.of_nat ?n) =>
      rewrite <- E, wrap_same; match goal with ET : ?T = kind_of _ |- _ => rewrite ET end; apply wrap_rep; apply kind_width end].
Ltac side :=
  lazymatch goal with
  | |- representable (common _ _) _ => apply rep_common_l; [assumption|simpl; lia|lia|rep]
  | |- representable _ _ => rep
  | |- 1 <= iwidth (common _ _) => apply width_common; [assumption|simpl; lia]
  | |- 1 <= _ => assumption
  | |- at_ _ = _ => reflexivity
  | |- succ_ _ _ = _ => apply succ_ok; [assumption|reflexivity|rep]
  | |- conv_ _ _ = _ => apply conv_ok; [assumption|rep]
  | |- (_ < _)%nat => lia
  | |- @eq nat _ _ => reflexivity
  | |- _ => idtac
  end.
Ltac go :=
  repeat (cbv beta; lazymatch goal with
  | |- same_run (c_for _ _ _ _ (fun k => with_ _ _)) (for_down _ _) => eapply same_mirror; side; intros
  | |- same_run (c_for _ _ _ _ _) (for_range _ _ _) => eapply same_for; side; intros
  | |- same_run (c_for_ptrdiff _ (k_upper _ _ ?i) _) _ =>
      match goal with R : representable (IK true 64) (Z.of_nat ?e), _ : (0 <= i < ?e)%nat |- _ =>
        apply same_upper with (n := e); [lia|exact R|lia|intros] end
  | |- same_run (c_fold _ _ _ _ _ _) (fold_range _ _ _ _) => eapply same_fold; side; intros
  | |- same_run (c_for_down _ _ _ _) (for_down _ _) => eapply same_down; side; intros
  | |- same_run (for_down _ _) (for_down _ _) => apply same_fordown; intros
  | |- same_run (c_loop_le _ _ _ _ _) _ => eapply same_le; side; intros
  | |- same_run (bind _ _) (bind _ _) => apply same_bind; [|intros]
  | |- same_run (when _ _) (when _ _) => apply same_when
  | |- same_run (from_index _ _) (from_index _ _) => apply same_from; [reflexivity|intros]
  | |- same_run (if (?a =? ?b)%nat then _ else _) _ => destruct (Nat.eqb_spec a b)
  | |- same_run (if ?c then _ else _) _ => destruct c
  | |- same_run ?p ?q => first [constr_eq p q; apply same_refl | apply same_refl]
  end).

Lemma copy_1_same : forall (O : ops) (fuel : nat) (tx ty : ikind) (x y : vec O),
  vspan fuel tx x -> vspan fuel ty y ->
  same_run (c_copy_1 fuel tx ty x y) (copy_1 x y).
Proof. unfold c_copy_1, copy_1; prep; go. Qed.

Lemma copy_2_same : forall (O : ops) (fuel : nat) (tx ty : ikind) (x y : mat O),
  mspan fuel tx x -> mspan fuel ty y ->
  same_run (c_copy_2 fuel tx ty x y) (copy_2 x y).
Proof. unfold c_copy_2, copy_2; prep; go. Qed.

Lemma swap_1_same : forall (O : ops) (fuel : nat) (tx ty : ikind) (x y : vec O),
  vspan fuel tx x -> vspan fuel ty y ->
  same_run (c_swap_1 fuel tx ty x y) (swap_1 x y).
Proof. unfold c_swap_1, swap_1; prep; go. Qed.

Lemma swap_2_same : forall (O : ops) (fuel : nat) (tx ty : ikind) (x y : mat O),
  mspan fuel tx x -> mspan fuel ty y ->
  same_run (c_swap_2 fuel tx ty x y) (swap_2 x y).
Proof. unfold c_swap_2, swap_2; prep; go. Qed.

Lemma scale_1_same : forall (O : ops) (fuel : nat) (tx : ikind) (alpha : O) (x : vec O),
  vspan fuel tx x ->
  same_run (c_scale_1 fuel tx alpha x) (scale_1 alpha x).
Proof. unfold c_scale_1, scale_1; prep; go. Qed.

Lemma scale_2_same : forall (O : ops) (fuel : nat) (tA : ikind) (alpha : O) (A : mat O),
  mspan fuel tA A ->
  same_run (c_scale_2 fuel tA alpha A) (scale_2 alpha A).
Proof. unfold c_scale_2, scale_2; prep; go. Qed.

Lemma add_1_same : forall (O : ops) (fuel : nat) (tx ty tz : ikind) (x y z : vec O),
  vspan fuel tx x -> vspan fuel ty y -> vspan fuel tz z ->
  same_run (c_add_1 fuel tx ty tz x y z) (add_1 x y z).
Proof. unfold c_add_1, add_1; prep; go. Qed.

Lemma add_2_same : forall (O : ops) (fuel : nat) (tx ty tz : ikind) (x y z : mat O),
  mspan fuel tx x -> mspan fuel ty y -> mspan fuel tz z ->
  same_run (c_add_2 fuel tx ty tz x y z) (add_2 x y z).
Proof. unfold c_add_2, add_2; prep; go. Qed.

Lemma dot_same : forall (O : ops) (fuel : nat) (tv1 tv2 : ikind) (v1 v2 : vec O) (init : O),
  vspan fuel tv1 v1 -> vspan fuel tv2 v2 ->
  same_run (c_dot fuel tv1 tv2 v1 v2 init) (dot v1 v2 init).
Proof. unfold c_dot, dot; prep; go. Qed.

Lemma vector_idx_abs_max_same : forall (O : ops) (M : Type) (fuel : nat) (tv : ikind) (mag : O -> M) (ltb : M -> M -> bool) (size_max : N) (v : vec O),
  vspan fuel tv v ->
  same_run (c_vector_idx_abs_max fuel tv mag ltb size_max v) (vector_idx_abs_max mag ltb size_max v).
Proof. unfold c_vector_idx_abs_max, vector_idx_abs_max; prep; go. Qed.

Lemma apply_givens_rotation_same : forall (O : ops) (fuel : nat) (tx ty : ikind) (x y : vec O) (c s : O),
  vspan fuel tx x -> vspan fuel ty y ->
  same_run (c_apply_givens_rotation fuel tx ty x y c s) (apply_givens_rotation x y c s).
Proof. unfold c_apply_givens_rotation, apply_givens_rotation; prep; go. Qed.

Lemma apply_givens_rotation_c_same : forall (O : ops) (fuel : nat) (tx ty : ikind) (x y : vec O) (c s : O),
  vspan fuel tx x -> vspan fuel ty y ->
  same_run (c_apply_givens_rotation_c fuel tx ty x y c s) (apply_givens_rotation_c x y c s).
Proof. unfold c_apply_givens_rotation_c, apply_givens_rotation_c; prep; go. Qed.

Lemma matrix_vector_product_same : forall (O : ops) (fuel : nat) (tA tx ty : ikind) (A : mat O) (x y : vec O),
  mspan fuel tA A -> vspan fuel tx x -> vspan fuel ty y ->
  same_run (c_matrix_vector_product fuel tA tx ty A x y) (matrix_vector_product A x y).
Proof. unfold c_matrix_vector_product, matrix_vector_product; prep; go. Qed.

Lemma matrix_vector_product_upd_same : forall (O : ops) (fuel : nat) (tA tx ty tz : ikind) (A : mat O) (x y z : vec O),
  mspan fuel tA A -> vspan fuel tx x -> vspan fuel ty y -> vspan fuel tz z ->
  same_run (c_matrix_vector_product_upd fuel tA tx ty tz A x y z) (matrix_vector_product_upd A x y z).
Proof. unfold c_matrix_vector_product_upd, matrix_vector_product_upd; prep; go. Qed.

Lemma symmetric_matrix_vector_product_same : forall (O : ops) (fuel : nat) (tA tx ty : ikind) (A : mat O) (t : triangle) (x y : vec O),
  mspan fuel tA A -> vspan fuel tx x -> vspan fuel ty y ->
  same_run (c_symmetric_matrix_vector_product fuel tA tx ty A t x y) (symmetric_matrix_vector_product A t x y).
Proof. unfold c_symmetric_matrix_vector_product, symmetric_matrix_vector_product; prep; go. Qed.

Lemma symmetric_matrix_vector_product_upd_same : forall (O : ops) (fuel : nat) (tA tx ty tz : ikind) (A : mat O) (t : triangle) (x y z : vec O),
  mspan fuel tA A -> vspan fuel tx x -> vspan fuel ty y -> vspan fuel tz z ->
  same_run (c_symmetric_matrix_vector_product_upd fuel tA tx ty tz A t x y z) (symmetric_matrix_vector_product_upd A t x y z).
Proof. unfold c_symmetric_matrix_vector_product_upd, symmetric_matrix_vector_product_upd; prep; go. Qed.

Lemma hermitian_matrix_vector_product_same : forall (O : ops) (fuel : nat) (tA tx ty : ikind) (A : mat O) (t : triangle) (x y : vec O),
  mspan fuel tA A -> vspan fuel tx x -> vspan fuel ty y ->
  same_run (c_hermitian_matrix_vector_product fuel tA tx ty A t x y) (hermitian_matrix_vector_product A t x y).
Proof. unfold c_hermitian_matrix_vector_product, hermitian_matrix_vector_product; prep; go. Qed.

Lemma hermitian_matrix_vector_product_upd_same : forall (O : ops) (fuel : nat) (tA tx ty tz : ikind) (A : mat O) (t : triangle) (x y z : vec O),
  mspan fuel tA A -> vspan fuel tx x -> vspan fuel ty y -> vspan fuel tz z ->
  same_run (c_hermitian_matrix_vector_product_upd fuel tA tx ty tz A t x y z) (hermitian_matrix_vector_product_upd A t x y z).
Proof. unfold c_hermitian_matrix_vector_product_upd, hermitian_matrix_vector_product_upd; prep; go. Qed.

Lemma triangular_matrix_vector_product_same : forall (O : ops) (fuel : nat) (tA tx ty : ikind) (A : mat O) (t : triangle) (d : diagonal) (x y : vec O),
  mspan fuel tA A -> vspan fuel tx x -> vspan fuel ty y ->
  same_run (c_triangular_matrix_vector_product fuel tA tx ty A t d x y) (triangular_matrix_vector_product A t d x y).
Proof. unfold c_triangular_matrix_vector_product, triangular_matrix_vector_product; prep; go. Qed.

Lemma triangular_matrix_vector_product_upd_same : forall (O : ops) (fuel : nat) (tA tx ty tz : ikind) (A : mat O) (t : triangle) (d : diagonal) (x y z : vec O),
  mspan fuel tA A -> vspan fuel tx x -> vspan fuel ty y -> vspan fuel tz z ->
  same_run (c_triangular_matrix_vector_product_upd fuel tA tx ty tz A t d x y z) (triangular_matrix_vector_product_upd A t d x y z).
Proof. unfold c_triangular_matrix_vector_product_upd, triangular_matrix_vector_product_upd; prep; go. Qed.

Lemma triangular_matrix_vector_product_inplace_same : forall (O : ops) (fuel : nat) (tA ty : ikind) (A : mat O) (t : triangle) (d : diagonal) (y : vec O),
  mspan fuel tA A -> vspan fuel ty y ->
  same_run (c_triangular_matrix_vector_product_inplace fuel tA ty A t d y) (triangular_matrix_vector_product_inplace A t d y).
Proof. unfold c_triangular_matrix_vector_product_inplace, triangular_matrix_vector_product_inplace; prep; go. Qed.

Lemma trsv_upper_same : forall (O : ops) (fuel : nat) (tA tB tX : ikind) (z : ity) (divide : O -> O -> O) (A : mat O) (d : diagonal) (B X : vec O),
  kind_of z = common_types tA [tB; tX] -> mspan fuel tA A -> vspan fuel tB B -> vspan fuel tX X ->
  same_run (c_trsv_upper fuel z divide A d B X) (trsv_upper z divide A d B X).
Proof. unfold c_trsv_upper, trsv_upper; prep; go. Qed.

Lemma trsv_lower_same : forall (O : ops) (fuel : nat) (tA tB tX : ikind) (z : ity) (divide : O -> O -> O) (A : mat O) (d : diagonal) (B X : vec O),
  kind_of z = common_types tA [tB; tX] -> mspan fuel tA A -> vspan fuel tB B -> vspan fuel tX X ->
  same_run (c_trsv_lower fuel z divide A d B X) (trsv_lower divide A d B X).
Proof. unfold c_trsv_lower, trsv_lower; prep; go. Qed.

Lemma matrix_rank_1_update_same : forall (O : ops) (fuel : nat) (tx ty tA : ikind) (x y : vec O) (A : mat O),
  vspan fuel tx x -> vspan fuel ty y -> mspan fuel tA A ->
  same_run (c_matrix_rank_1_update fuel tx ty tA x y A) (matrix_rank_1_update x y A).
Proof. unfold c_matrix_rank_1_update, matrix_rank_1_update; prep; go. Qed.

Lemma symmetric_matrix_rank_1_update_alpha_same : forall (O : ops) (fuel : nat) (tx tA : ikind) (alpha : O) (x : vec O) (A : mat O) (t : triangle),
  vspan fuel tx x -> mspan fuel tA A ->
  same_run (c_symmetric_matrix_rank_1_update_alpha fuel tx tA alpha x A t) (symmetric_matrix_rank_1_update_alpha alpha x A t).
Proof. unfold c_symmetric_matrix_rank_1_update_alpha, symmetric_matrix_rank_1_update_alpha; prep; go. Qed.

Lemma symmetric_matrix_rank_1_update_same : forall (O : ops) (fuel : nat) (tx tA : ikind) (x : vec O) (A : mat O) (t : triangle),
  vspan fuel tx x -> mspan fuel tA A ->
  same_run (c_symmetric_matrix_rank_1_update fuel tx tA x A t) (symmetric_matrix_rank_1_update x A t).
Proof. unfold c_symmetric_matrix_rank_1_update, symmetric_matrix_rank_1_update; prep; go. Qed.

Lemma hermitian_matrix_rank_1_update_alpha_same : forall (O : ops) (fuel : nat) (tx tA : ikind) (alpha : O) (x : vec O) (A : mat O) (t : triangle),
  vspan fuel tx x -> mspan fuel tA A ->
  same_run (c_hermitian_matrix_rank_1_update_alpha fuel tx tA alpha x A t) (hermitian_matrix_rank_1_update_alpha alpha x A t).
Proof. unfold c_hermitian_matrix_rank_1_update_alpha, hermitian_matrix_rank_1_update_alpha; prep; go. Qed.

Lemma hermitian_matrix_rank_1_update_same : forall (O : ops) (fuel : nat) (tx tA : ikind) (x : vec O) (A : mat O) (t : triangle),
  vspan fuel tx x -> mspan fuel tA A ->
  same_run (c_hermitian_matrix_rank_1_update fuel tx tA x A t) (hermitian_matrix_rank_1_update x A t).
Proof. unfold c_hermitian_matrix_rank_1_update, hermitian_matrix_rank_1_update; prep; go. Qed.

Lemma symmetric_matrix_rank_2_update_same : forall (O : ops) (fuel : nat) (tx ty tA : ikind) (x y : vec O) (A : mat O) (t : triangle),
  vspan fuel tx x -> vspan fuel ty y -> mspan fuel tA A ->
  same_run (c_symmetric_matrix_rank_2_update fuel tx ty tA x y A t) (symmetric_matrix_rank_2_update x y A t).
Proof. unfold c_symmetric_matrix_rank_2_update, symmetric_matrix_rank_2_update; prep; go. Qed.

Lemma hermitian_matrix_rank_2_update_same : forall (O : ops) (fuel : nat) (tx ty tA : ikind) (x y : vec O) (A : mat O) (t : triangle),
  vspan fuel tx x -> vspan fuel ty y -> mspan fuel tA A ->
  same_run (c_hermitian_matrix_rank_2_update fuel tx ty tA x y A t) (hermitian_matrix_rank_2_update x y A t).
Proof. unfold c_hermitian_matrix_rank_2_update, hermitian_matrix_rank_2_update; prep; go. Qed.

Lemma matrix_product_same : forall (O : ops) (fuel : nat) (tA tB tC : ikind) (A B C : mat O),
  mspan fuel tA A -> mspan fuel tB B -> mspan fuel tC C ->
  same_run (c_matrix_product fuel tA tB tC A B C) (matrix_product A B C).
Proof. unfold c_matrix_product, matrix_product; prep; go. Qed.

Lemma matrix_product_upd_same : forall (O : ops) (fuel : nat) (tA tB tE tC : ikind) (A B E C : mat O),
  mspan fuel tA A -> mspan fuel tB B -> mspan fuel tE E -> mspan fuel tC C ->
  same_run (c_matrix_product_upd fuel tA tB tE tC A B E C) (matrix_product_upd A B E C).
Proof. unfold c_matrix_product_upd, matrix_product_upd; prep; go. Qed.

Lemma triangular_matrix_product_left_same : forall (O : ops) (fuel : nat) (tA tB tC : ikind) (z : ity) (A : mat O) (t : triangle) (d : diagonal) (B C : mat O),
  kind_of z = common_types tA [tB; tC] -> mspan fuel tA A -> mspan fuel tB B -> mspan fuel tC C -> in_ptrdiff C ->
  same_run (c_triangular_matrix_product_left fuel tA tB tC z A t d B C) (triangular_matrix_product_left z A t d B C).
Proof. unfold c_triangular_matrix_product_left, triangular_matrix_product_left; prep; go. Qed.

Lemma triangular_matrix_product_right_same : forall (O : ops) (fuel : nat) (tA tB tC : ikind) (z : ity) (B A : mat O) (t : triangle) (d : diagonal) (C : mat O),
  kind_of z = common_types tA [tB; tC] -> mspan fuel tA A -> mspan fuel tB B -> mspan fuel tC C -> in_ptrdiff C ->
  same_run (c_triangular_matrix_product_right fuel tB tA tC z B A t d C) (triangular_matrix_product_right z B A t d C).
Proof. unfold c_triangular_matrix_product_right, triangular_matrix_product_right; prep; go. Qed.

Lemma triangular_matrix_left_product_same : forall (O : ops) (fuel : nat) (tA tC : ikind) (A : mat O) (t : triangle) (d : diagonal) (C : mat O),
  mspan fuel tA A -> mspan fuel tC C ->
  same_run (c_triangular_matrix_left_product fuel tA tC A t d C) (triangular_matrix_left_product A t d C).
Proof. unfold c_triangular_matrix_left_product, triangular_matrix_left_product; prep; go. Qed.

Lemma triangular_matrix_right_product_same : forall (O : ops) (fuel : nat) (tA tC : ikind) (A : mat O) (t : triangle) (d : diagonal) (C : mat O),
  mspan fuel tA A -> mspan fuel tC C ->
  same_run (c_triangular_matrix_right_product fuel tA tC A t d C) (triangular_matrix_right_product A t d C).
Proof. unfold c_triangular_matrix_right_product, triangular_matrix_right_product; prep; go. Qed.

Lemma symmetric_matrix_product_left_same : forall (O : ops) (fuel : nat) (tA tB tC : ikind) (A : mat O) (t : triangle) (B C : mat O),
  mspan fuel tA A -> mspan fuel tB B -> mspan fuel tC C ->
  same_run (c_symmetric_matrix_product_left fuel tA tB tC A t B C) (symmetric_matrix_product_left A t B C).
Proof. unfold c_symmetric_matrix_product_left, symmetric_matrix_product_left; prep; go. Qed.

Lemma symmetric_matrix_product_right_same : forall (O : ops) (fuel : nat) (tB tA tC : ikind) (B A : mat O) (t : triangle) (C : mat O),
  mspan fuel tB B -> mspan fuel tA A -> mspan fuel tC C ->
  same_run (c_symmetric_matrix_product_right fuel tB tA tC B A t C) (symmetric_matrix_product_right B A t C).
Proof. unfold c_symmetric_matrix_product_right, symmetric_matrix_product_right; prep; go. Qed.

Lemma hermitian_matrix_product_left_same : forall (O : ops) (fuel : nat) (tA tB tC : ikind) (A : mat O) (t : triangle) (B C : mat O),
  mspan fuel tA A -> mspan fuel tB B -> mspan fuel tC C ->
  same_run (c_hermitian_matrix_product_left fuel tA tB tC A t B C) (hermitian_matrix_product_left A t B C).
Proof. unfold c_hermitian_matrix_product_left, hermitian_matrix_product_left; prep; go. Qed.

Lemma hermitian_matrix_product_right_same : forall (O : ops) (fuel : nat) (tB tA tC : ikind) (B A : mat O) (t : triangle) (C : mat O),
  mspan fuel tB B -> mspan fuel tA A -> mspan fuel tC C ->
  same_run (c_hermitian_matrix_product_right fuel tB tA tC B A t C) (hermitian_matrix_product_right B A t C).
Proof. unfold c_hermitian_matrix_product_right, hermitian_matrix_product_right; prep; go. Qed.

Lemma symmetric_matrix_rank_k_update_alpha_same : forall (O : ops) (fuel : nat) (tA tC : ikind) (alpha : O) (A C : mat O) (t : triangle),
  mspan fuel tA A -> mspan fuel tC C ->
  same_run (c_symmetric_matrix_rank_k_update_alpha fuel tA tC alpha A C t) (symmetric_matrix_rank_k_update_alpha alpha A C t).
Proof. unfold c_symmetric_matrix_rank_k_update_alpha, symmetric_matrix_rank_k_update_alpha; prep; go. Qed.

Lemma symmetric_matrix_rank_k_update_same : forall (O : ops) (fuel : nat) (tA tC : ikind) (A C : mat O) (t : triangle),
  mspan fuel tA A -> mspan fuel tC C ->
  same_run (c_symmetric_matrix_rank_k_update fuel tA tC A C t) (symmetric_matrix_rank_k_update A C t).
Proof. unfold c_symmetric_matrix_rank_k_update, symmetric_matrix_rank_k_update; prep; go. Qed.

Lemma hermitian_matrix_rank_k_update_alpha_same : forall (O : ops) (fuel : nat) (tA tC : ikind) (alpha : O) (A C : mat O) (t : triangle),
  mspan fuel tA A -> mspan fuel tC C ->
  same_run (c_hermitian_matrix_rank_k_update_alpha fuel tA tC alpha A C t) (hermitian_matrix_rank_k_update_alpha alpha A C t).
Proof. unfold c_hermitian_matrix_rank_k_update_alpha, hermitian_matrix_rank_k_update_alpha; prep; go. Qed.

Lemma hermitian_matrix_rank_k_update_same : forall (O : ops) (fuel : nat) (tA tC : ikind) (A C : mat O) (t : triangle),
  mspan fuel tA A -> mspan fuel tC C ->
  same_run (c_hermitian_matrix_rank_k_update fuel tA tC A C t) (hermitian_matrix_rank_k_update A C t).
Proof. unfold c_hermitian_matrix_rank_k_update, hermitian_matrix_rank_k_update; prep; go. Qed.

Lemma symmetric_matrix_rank_2k_update_same : forall (O : ops) (fuel : nat) (tA tB tC : ikind) (A B C : mat O) (t : triangle),
  mspan fuel tA A -> mspan fuel tB B -> mspan fuel tC C ->
  same_run (c_symmetric_matrix_rank_2k_update fuel tA tB tC A B C t) (symmetric_matrix_rank_2k_update A B C t).
Proof. unfold c_symmetric_matrix_rank_2k_update, symmetric_matrix_rank_2k_update; prep; go. Qed.

Lemma hermitian_matrix_rank_2k_update_same : forall (O : ops) (fuel : nat) (tA tB tC : ikind) (A B C : mat O) (t : triangle),
  mspan fuel tA A -> mspan fuel tB B -> mspan fuel tC C ->
  same_run (c_hermitian_matrix_rank_2k_update fuel tA tB tC A B C t) (hermitian_matrix_rank_2k_update A B C t).
Proof. unfold c_hermitian_matrix_rank_2k_update, hermitian_matrix_rank_2k_update; prep; go. Qed.

Lemma trsm_upper_left_same : forall (O : ops) (fuel : nat) (tA tB tX : ikind) (z : ity) (A : mat O) (d : diagonal) (B X : mat O),
  kind_of z = common_types tA [tB; tX] -> mspan fuel tA A -> mspan fuel tB B -> mspan fuel tX X ->
  same_run (c_trsm_upper_left fuel z A d B X) (trsm_upper_left z A d B X).
Proof. unfold c_trsm_upper_left, trsm_upper_left; prep; go. Qed.

Lemma trsm_lower_left_same : forall (O : ops) (fuel : nat) (tA tB tX : ikind) (z : ity) (A : mat O) (d : diagonal) (B X : mat O),
  kind_of z = common_types tA [tB; tX] -> mspan fuel tA A -> mspan fuel tB B -> mspan fuel tX X ->
  same_run (c_trsm_lower_left fuel z A d B X) (trsm_lower_left A d B X).
Proof. unfold c_trsm_lower_left, trsm_lower_left; prep; go. Qed.

Lemma trsm_upper_right_same : forall (O : ops) (fuel : nat) (tA tB tX : ikind) (z : ity) (A : mat O) (d : diagonal) (B X : mat O),
  kind_of z = common_types tA [tB; tX] -> mspan fuel tA A -> mspan fuel tB B -> mspan fuel tX X ->
  same_run (c_trsm_upper_right fuel z A d B X) (trsm_upper_right A d B X).
Proof. unfold c_trsm_upper_right, trsm_upper_right; prep; go. Qed.

Lemma trsm_lower_right_same : forall (O : ops) (fuel : nat) (tA tB tX : ikind) (z : ity) (A : mat O) (d : diagonal) (B X : mat O),
  kind_of z = common_types tA [tB; tX] -> mspan fuel tA A -> mspan fuel tB B -> mspan fuel tX X ->
  same_run (c_trsm_lower_right fuel z A d B X) (trsm_lower_right z A d B X).
Proof. unfold c_trsm_lower_right, trsm_lower_right; prep; go. Qed.

Lemma vector_abs_sum_same : forall (O : ops) (F : rops) (M : mags O F) (fuel : nat) (tv : ikind) (v : vec O) (init : F),
  vspan fuel tv v ->
  same_run (c_vector_abs_sum fuel M tv v init) (vector_abs_sum M v init).
Proof. unfold c_vector_abs_sum, vector_abs_sum; prep; go. Qed.

Lemma vector_sum_of_squares_same : forall (O : ops) (F : rops) (M : mags O F) (fuel : nat) (tx : ikind) (x : vec O) (init : sum_of_squares_result),
  vspan fuel tx x ->
  same_run (c_vector_sum_of_squares fuel M tx x init) (vector_sum_of_squares M x init).
Proof. unfold c_vector_sum_of_squares, vector_sum_of_squares; prep; go. Qed.

Lemma matrix_frob_norm_same : forall (O : ops) (F : rops) (M : mags O F) (fuel : nat) (tA : ikind) (A : mat O) (init : F),
  mspan fuel tA A ->
  same_run (c_matrix_frob_norm fuel M tA A init) (matrix_frob_norm M A init).
Proof. unfold c_matrix_frob_norm, matrix_frob_norm; prep; go. Qed.

Lemma matrix_inf_norm_same : forall (O : ops) (F : rops) (M : mags O F) (fuel : nat) (tA : ikind) (A : mat O) (init : F),
  mspan fuel tA A ->
  same_run (c_matrix_inf_norm fuel M tA A init) (matrix_inf_norm M A init).
Proof. unfold c_matrix_inf_norm, matrix_inf_norm; prep; go. Qed.

Lemma matrix_one_norm_same : forall (O : ops) (F : rops) (M : mags O F) (fuel : nat) (tA : ikind) (A : mat O) (init : F),
  mspan fuel tA A ->
  same_run (c_matrix_one_norm fuel M tA A init) (matrix_one_norm M A init).
Proof. unfold c_matrix_one_norm, matrix_one_norm; prep; go. Qed.

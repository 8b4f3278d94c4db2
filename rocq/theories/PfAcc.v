(** Lemmas for C96, algorithm by algorithm (generated: one statement and one tactic call each). *)
From Coq Require Import List Arith NArith ZArith Bool Lia.
From Verif Require Import Mem Scalar View Spec Idx Blas1 Blas2 Blas3 Norm Par Red KK KKNorm SpecRel PfRel PfRel2 SpecAcc.
Import ListNotations.
Set Implicit Arguments.

Notation any := (fun _ _ => True).
Lemma like_accesses : forall (O1 O2 : ops) A1 A2 (p1 : prog O1 A1) (p2 : prog O2 A2), like any any p1 p2 -> same_accesses p1 p2.
Proof.
  intros O1 O2 A1 A2. induction p1 as [x1|a1 k1 IH|a1 v1 k1 IH|e1]; intros p2 H m1 m2 Hm; destruct p2 as [x2|a2 k2|a2 v2 k2|e2]; simpl in H |- *; try tauto; auto.
  - destruct H as [<- H]. assert (K := Hm a1). destruct (m1 a1) as [w1|], (m2 a1) as [w2|].
    + destruct (IH w1 (k2 w2) (H w1 w2 Logic.I) m1 m2 Hm) as [E1 E2]. rewrite E1. split; auto.
    + destruct K as [_ K]. specialize (K eq_refl). discriminate.
    + destruct K as [K _]. specialize (K eq_refl). discriminate.
    + auto.
  - destruct H as [<- [_ H]]. assert (K := Hm a1). destruct (m1 a1) as [w1|] eqn:D1, (m2 a1) as [w2|] eqn:D2.
    + assert (Hu : same_allocation (upd m1 a1 v1) (upd m2 a1 v2)).
      { intros b. unfold upd. destruct (b =? a1); [split; discriminate|apply Hm]. }
      destruct (IH k2 H _ _ Hu) as [E1 E2]. rewrite E1. split; auto.
    + destruct K as [_ K]. specialize (K eq_refl). discriminate.
    + destruct K as [K _]. specialize (K eq_refl). discriminate.
    + auto.
Qed.
Lemma like_given : forall (O1 O2 : ops) A1 A2 (p1 : prog O1 A1) (p2 : prog O2 A2), like any any p1 p2 ->
  forall l1 l2, accesses_given l1 p1 = accesses_given l2 p2.
Proof.
  intros O1 O2 A1 A2. induction p1 as [x1|a1 k1 IH|a1 v1 k1 IH|e1]; intros p2 H l1 l2; destruct p2 as [x2|a2 k2|a2 v2 k2|e2]; simpl in H |- *; try tauto; auto.
  - destruct H as [<- H]. f_equal. apply IH. apply H. exact Logic.I.
  - destruct H as [<- [_ H]]. f_equal. apply IH. exact H.
Qed.
Lemma par_accesses : forall (O1 O2 : ops) (p1 : par O1) (p2 : par O2), par_like any p1 p2 -> same_accesses_par p1 p2.
Proof.
  intros O1 O2. induction p1 as [| | |n1 b1 k1 IH]; intros [| | |n2 b2 k2] H; simpl in H |- *; auto.
  destruct H as [E [Hb Hk]]. split; [exact E|]. split; [|apply IH; exact Hk].
  intros i l1 l2. apply like_given. apply Hb.
Qed.
Lemma any_respects : forall O1 O2 : ops, @respects O1 O2 any.
Proof. intros. constructor; intros; exact Logic.I. Qed.
Ltac blind := exts; lazymatch goal with
  | |- like _ _ (bind _ _) (bind _ _) => eapply like_bind with (P := fun _ _ => True); [blind | intros ? ? _; blind]
  | |- like _ _ (for_range _ _ _) (for_range _ _ _) => apply like_for_range; intros ?; blind
  | |- like _ _ (for_down _ _) (for_down _ _) => apply like_for_down; intros ?; blind
  | |- like _ _ (fold_range _ _ _ _) _ => apply like_fold_range with (P := fun _ _ => True); [intros ? ? ? ?; blind | exact Logic.I]
  | |- like _ _ (when _ _) (when _ _) => apply like_when; blind
  | |- like _ _ (from_index _ _) (from_index _ _) => apply like_from; intros ?; blind
  | |- like _ _ (vget _ _) (vget _ _) => apply like_vget; views
  | |- like _ _ (mget _ _ _) (mget _ _ _) => apply like_mget; views
  | |- like _ _ (vset _ _ _) (vset _ _ _) => apply like_vset; views
  | |- like _ _ (mset _ _ _ _) (mset _ _ _ _) => apply like_mset; views
  | |- like _ _ (Ret _) (Ret _) => exact Logic.I
  | |- like _ _ (if ?b then _ else _) (if ?b then _ else _) => destruct b; blind
  | |- like _ _ (if ?b then Ret _ else Ret _) (if ?c then Ret _ else Ret _) => destruct b; destruct c; exact Logic.I
  | |- par_like _ (check_eq _ _ _) (check_eq _ _ _) => apply check_like; blind
  | |- par_like _ (view_m _ _) (view_m _ _) => apply view_like; [views | intros ? ? ?; blind]
  | |- par_like _ (PFor _ _ _) (PFor _ _ _) => split; [reflexivity | split; [intros ?; unfold body_like; blind | blind]]
  | |- par_like _ PDone PDone => exact Logic.I
  | |- par_like _ (par_for _ _ _) (par_for _ _ _) => apply par_for_like; intros ?; blind
  | |- par_like _ (if ?b then _ else _) (if ?b then _ else _) => destruct b; blind
  | |- like _ _ (if reqb ?a ?b then Ret _ else (if rltb ?c ?d then Ret _ else Ret _)) (if reqb ?a2 ?b2 then Ret _ else (if rltb ?c2 ?d2 then Ret _ else Ret _)) =>
      destruct (reqb a b); destruct (reqb a2 b2); try destruct (rltb c d); try destruct (rltb c2 d2); exact Logic.I
  end
with views := first [assumption | exact Logic.I | apply any_respects | apply like_view_v; views | apply like_conjugated_v; views].
Ltac acc_go := intros; unfold same_view_v, same_view_m in *;
  first [apply like_accesses | apply par_accesses]; opened;
  try match goal with E : arithmetic _ = arithmetic _ |- _ => rewrite E end;
  cases; simpl is_explicit; cbv zeta; blind.

Lemma acc_copy_1 : forall (O1 O2 : ops) (x1 : vec O1) (x2 : vec O2) (y1 : vec O1) (y2 : vec O2),
  same_view_v x1 x2 -> same_view_v y1 y2 ->
  same_accesses (copy_1 x1 y1) (copy_1 x2 y2).
Proof. acc_go. Qed.
Lemma acc_copy_2 : forall (O1 O2 : ops) (x1 : mat O1) (x2 : mat O2) (y1 : mat O1) (y2 : mat O2),
  same_view_m x1 x2 -> same_view_m y1 y2 ->
  same_accesses (copy_2 x1 y1) (copy_2 x2 y2).
Proof. acc_go. Qed.
Lemma acc_swap_1 : forall (O1 O2 : ops) (x1 : vec O1) (x2 : vec O2) (y1 : vec O1) (y2 : vec O2),
  same_view_v x1 x2 -> same_view_v y1 y2 ->
  same_accesses (swap_1 x1 y1) (swap_1 x2 y2).
Proof. acc_go. Qed.
Lemma acc_swap_2 : forall (O1 O2 : ops) (x1 : mat O1) (x2 : mat O2) (y1 : mat O1) (y2 : mat O2),
  same_view_m x1 x2 -> same_view_m y1 y2 ->
  same_accesses (swap_2 x1 y1) (swap_2 x2 y2).
Proof. acc_go. Qed.
Lemma acc_scale_1 : forall (O1 O2 : ops) (alpha1 : car O1) (alpha2 : car O2) (x1 : vec O1) (x2 : vec O2),
  same_view_v x1 x2 ->
  same_accesses (scale_1 alpha1 x1) (scale_1 alpha2 x2).
Proof. acc_go. Qed.
Lemma acc_scale_2 : forall (O1 O2 : ops) (alpha1 : car O1) (alpha2 : car O2) (A1 : mat O1) (A2 : mat O2),
  same_view_m A1 A2 ->
  same_accesses (scale_2 alpha1 A1) (scale_2 alpha2 A2).
Proof. acc_go. Qed.
Lemma acc_add_1 : forall (O1 O2 : ops) (x1 : vec O1) (x2 : vec O2) (y1 : vec O1) (y2 : vec O2) (z1 : vec O1) (z2 : vec O2),
  same_view_v x1 x2 -> same_view_v y1 y2 -> same_view_v z1 z2 ->
  same_accesses (add_1 x1 y1 z1) (add_1 x2 y2 z2).
Proof. acc_go. Qed.
Lemma acc_add_2 : forall (O1 O2 : ops) (x1 : mat O1) (x2 : mat O2) (y1 : mat O1) (y2 : mat O2) (z1 : mat O1) (z2 : mat O2),
  same_view_m x1 x2 -> same_view_m y1 y2 -> same_view_m z1 z2 ->
  same_accesses (add_2 x1 y1 z1) (add_2 x2 y2 z2).
Proof. acc_go. Qed.
Lemma acc_dot : forall (O1 O2 : ops) (v11 : vec O1) (v12 : vec O2) (v21 : vec O1) (v22 : vec O2) (init1 : car O1) (init2 : car O2),
  same_view_v v11 v12 -> same_view_v v21 v22 ->
  same_accesses (dot v11 v21 init1) (dot v12 v22 init2).
Proof. acc_go. Qed.
Lemma acc_dotc : forall (O1 O2 : ops) (v11 : vec O1) (v12 : vec O2) (v21 : vec O1) (v22 : vec O2) (init1 : car O1) (init2 : car O2) (fix_nc : bool) (noncomplex : bool),
  same_view_v v11 v12 -> same_view_v v21 v22 ->
  same_accesses (dotc fix_nc noncomplex v11 v21 init1) (dotc fix_nc noncomplex v12 v22 init2).
Proof. acc_go. Qed.
Lemma acc_dot_noinit : forall (O1 O2 : ops) (v11 : vec O1) (v12 : vec O2) (v21 : vec O1) (v22 : vec O2),
  same_view_v v11 v12 -> same_view_v v21 v22 ->
  same_accesses (dot_noinit v11 v21) (dot_noinit v12 v22).
Proof. acc_go. Qed.
Lemma acc_dotc_noinit : forall (O1 O2 : ops) (v11 : vec O1) (v12 : vec O2) (v21 : vec O1) (v22 : vec O2) (fix_nc : bool) (noncomplex : bool),
  same_view_v v11 v12 -> same_view_v v21 v22 ->
  same_accesses (dotc_noinit fix_nc noncomplex v11 v21) (dotc_noinit fix_nc noncomplex v12 v22).
Proof. acc_go. Qed.
Lemma acc_apply_givens_rotation : forall (O1 O2 : ops) (x1 : vec O1) (x2 : vec O2) (y1 : vec O1) (y2 : vec O2) (c1 : car O1) (c2 : car O2) (s1 : car O1) (s2 : car O2),
  same_view_v x1 x2 -> same_view_v y1 y2 ->
  same_accesses (apply_givens_rotation x1 y1 c1 s1) (apply_givens_rotation x2 y2 c2 s2).
Proof. acc_go. Qed.
Lemma acc_apply_givens_rotation_c : forall (O1 O2 : ops) (x1 : vec O1) (x2 : vec O2) (y1 : vec O1) (y2 : vec O2) (c1 : car O1) (c2 : car O2) (s1 : car O1) (s2 : car O2),
  same_view_v x1 x2 -> same_view_v y1 y2 ->
  same_accesses (apply_givens_rotation_c x1 y1 c1 s1) (apply_givens_rotation_c x2 y2 c2 s2).
Proof. acc_go. Qed.
Lemma acc_matrix_vector_product : forall (O1 O2 : ops) (A1 : mat O1) (A2 : mat O2) (x1 : vec O1) (x2 : vec O2) (y1 : vec O1) (y2 : vec O2),
  same_view_m A1 A2 -> same_view_v x1 x2 -> same_view_v y1 y2 ->
  same_accesses (matrix_vector_product A1 x1 y1) (matrix_vector_product A2 x2 y2).
Proof. acc_go. Qed.
Lemma acc_matrix_vector_product_upd : forall (O1 O2 : ops) (A1 : mat O1) (A2 : mat O2) (x1 : vec O1) (x2 : vec O2) (y1 : vec O1) (y2 : vec O2) (z1 : vec O1) (z2 : vec O2),
  same_view_m A1 A2 -> same_view_v x1 x2 -> same_view_v y1 y2 -> same_view_v z1 z2 ->
  same_accesses (matrix_vector_product_upd A1 x1 y1 z1) (matrix_vector_product_upd A2 x2 y2 z2).
Proof. acc_go. Qed.
Lemma acc_symmetric_matrix_vector_product : forall (O1 O2 : ops) (A1 : mat O1) (A2 : mat O2) (x1 : vec O1) (x2 : vec O2) (y1 : vec O1) (y2 : vec O2) (t : triangle),
  same_view_m A1 A2 -> same_view_v x1 x2 -> same_view_v y1 y2 ->
  same_accesses (symmetric_matrix_vector_product A1 t x1 y1) (symmetric_matrix_vector_product A2 t x2 y2).
Proof. acc_go. Qed.
Lemma acc_symmetric_matrix_vector_product_upd : forall (O1 O2 : ops) (A1 : mat O1) (A2 : mat O2) (x1 : vec O1) (x2 : vec O2) (y1 : vec O1) (y2 : vec O2) (z1 : vec O1) (z2 : vec O2) (t : triangle),
  same_view_m A1 A2 -> same_view_v x1 x2 -> same_view_v y1 y2 -> same_view_v z1 z2 ->
  same_accesses (symmetric_matrix_vector_product_upd A1 t x1 y1 z1) (symmetric_matrix_vector_product_upd A2 t x2 y2 z2).
Proof. acc_go. Qed.
Lemma acc_hermitian_matrix_vector_product : forall (O1 O2 : ops) (A1 : mat O1) (A2 : mat O2) (x1 : vec O1) (x2 : vec O2) (y1 : vec O1) (y2 : vec O2) (t : triangle),
  same_view_m A1 A2 -> same_view_v x1 x2 -> same_view_v y1 y2 ->
  same_accesses (hermitian_matrix_vector_product A1 t x1 y1) (hermitian_matrix_vector_product A2 t x2 y2).
Proof. acc_go. Qed.
Lemma acc_hermitian_matrix_vector_product_upd : forall (O1 O2 : ops) (A1 : mat O1) (A2 : mat O2) (x1 : vec O1) (x2 : vec O2) (y1 : vec O1) (y2 : vec O2) (z1 : vec O1) (z2 : vec O2) (t : triangle),
  same_view_m A1 A2 -> same_view_v x1 x2 -> same_view_v y1 y2 -> same_view_v z1 z2 ->
  same_accesses (hermitian_matrix_vector_product_upd A1 t x1 y1 z1) (hermitian_matrix_vector_product_upd A2 t x2 y2 z2).
Proof. acc_go. Qed.
Lemma acc_triangular_matrix_vector_product : forall (O1 O2 : ops) (A1 : mat O1) (A2 : mat O2) (x1 : vec O1) (x2 : vec O2) (y1 : vec O1) (y2 : vec O2) (t : triangle) (d : diagonal),
  same_view_m A1 A2 -> same_view_v x1 x2 -> same_view_v y1 y2 ->
  same_accesses (triangular_matrix_vector_product A1 t d x1 y1) (triangular_matrix_vector_product A2 t d x2 y2).
Proof. acc_go. Qed.
Lemma acc_triangular_matrix_vector_product_upd : forall (O1 O2 : ops) (A1 : mat O1) (A2 : mat O2) (x1 : vec O1) (x2 : vec O2) (y1 : vec O1) (y2 : vec O2) (z1 : vec O1) (z2 : vec O2) (t : triangle) (d : diagonal),
  same_view_m A1 A2 -> same_view_v x1 x2 -> same_view_v y1 y2 -> same_view_v z1 z2 ->
  same_accesses (triangular_matrix_vector_product_upd A1 t d x1 y1 z1) (triangular_matrix_vector_product_upd A2 t d x2 y2 z2).
Proof. acc_go. Qed.
Lemma acc_triangular_matrix_vector_product_inplace : forall (O1 O2 : ops) (A1 : mat O1) (A2 : mat O2) (y1 : vec O1) (y2 : vec O2) (t : triangle) (d : diagonal),
  same_view_m A1 A2 -> same_view_v y1 y2 ->
  same_accesses (triangular_matrix_vector_product_inplace A1 t d y1) (triangular_matrix_vector_product_inplace A2 t d y2).
Proof. acc_go. Qed.
Lemma acc_triangular_matrix_vector_solve_with : forall (O1 O2 : ops) (divide1 : O1 -> O1 -> O1) (divide2 : O2 -> O2 -> O2) (A1 : mat O1) (A2 : mat O2) (b1 : vec O1) (b2 : vec O2) (x1 : vec O1) (x2 : vec O2) (ty : ity) (t : triangle) (d : diagonal),
  same_view_m A1 A2 -> same_view_v b1 b2 -> same_view_v x1 x2 ->
  same_accesses (triangular_matrix_vector_solve_with ty divide1 A1 t d b1 x1) (triangular_matrix_vector_solve_with ty divide2 A2 t d b2 x2).
Proof. acc_go. Qed.
Lemma acc_triangular_matrix_vector_solve : forall (O1 O2 : ops) (A1 : mat O1) (A2 : mat O2) (b1 : vec O1) (b2 : vec O2) (x1 : vec O1) (x2 : vec O2) (ty : ity) (t : triangle) (d : diagonal),
  same_view_m A1 A2 -> same_view_v b1 b2 -> same_view_v x1 x2 ->
  same_accesses (triangular_matrix_vector_solve ty A1 t d b1 x1) (triangular_matrix_vector_solve ty A2 t d b2 x2).
Proof. acc_go. Qed.
Lemma acc_matrix_rank_1_update : forall (O1 O2 : ops) (x1 : vec O1) (x2 : vec O2) (y1 : vec O1) (y2 : vec O2) (A1 : mat O1) (A2 : mat O2),
  same_view_v x1 x2 -> same_view_v y1 y2 -> same_view_m A1 A2 ->
  same_accesses (matrix_rank_1_update x1 y1 A1) (matrix_rank_1_update x2 y2 A2).
Proof. acc_go. Qed.
Lemma acc_matrix_rank_1_update_c : forall (O1 O2 : ops) (x1 : vec O1) (x2 : vec O2) (y1 : vec O1) (y2 : vec O2) (A1 : mat O1) (A2 : mat O2) (fix_nc : bool) (noncomplex : bool),
  same_view_v x1 x2 -> same_view_v y1 y2 -> same_view_m A1 A2 ->
  same_accesses (matrix_rank_1_update_c fix_nc noncomplex x1 y1 A1) (matrix_rank_1_update_c fix_nc noncomplex x2 y2 A2).
Proof. acc_go. Qed.
Lemma acc_symmetric_matrix_rank_1_update_alpha : forall (O1 O2 : ops) (alpha1 : car O1) (alpha2 : car O2) (x1 : vec O1) (x2 : vec O2) (A1 : mat O1) (A2 : mat O2) (t : triangle),
  same_view_v x1 x2 -> same_view_m A1 A2 ->
  same_accesses (symmetric_matrix_rank_1_update_alpha alpha1 x1 A1 t) (symmetric_matrix_rank_1_update_alpha alpha2 x2 A2 t).
Proof. acc_go. Qed.
Lemma acc_symmetric_matrix_rank_1_update : forall (O1 O2 : ops) (x1 : vec O1) (x2 : vec O2) (A1 : mat O1) (A2 : mat O2) (t : triangle),
  same_view_v x1 x2 -> same_view_m A1 A2 ->
  same_accesses (symmetric_matrix_rank_1_update x1 A1 t) (symmetric_matrix_rank_1_update x2 A2 t).
Proof. acc_go. Qed.
Lemma acc_hermitian_matrix_rank_1_update_alpha : forall (O1 O2 : ops) (alpha1 : car O1) (alpha2 : car O2) (x1 : vec O1) (x2 : vec O2) (A1 : mat O1) (A2 : mat O2) (t : triangle),
  same_view_v x1 x2 -> same_view_m A1 A2 ->
  same_accesses (hermitian_matrix_rank_1_update_alpha alpha1 x1 A1 t) (hermitian_matrix_rank_1_update_alpha alpha2 x2 A2 t).
Proof. acc_go. Qed.
Lemma acc_hermitian_matrix_rank_1_update : forall (O1 O2 : ops) (x1 : vec O1) (x2 : vec O2) (A1 : mat O1) (A2 : mat O2) (t : triangle),
  same_view_v x1 x2 -> same_view_m A1 A2 ->
  same_accesses (hermitian_matrix_rank_1_update x1 A1 t) (hermitian_matrix_rank_1_update x2 A2 t).
Proof. acc_go. Qed.
Lemma acc_symmetric_matrix_rank_2_update : forall (O1 O2 : ops) (x1 : vec O1) (x2 : vec O2) (y1 : vec O1) (y2 : vec O2) (A1 : mat O1) (A2 : mat O2) (t : triangle),
  same_view_v x1 x2 -> same_view_v y1 y2 -> same_view_m A1 A2 ->
  same_accesses (symmetric_matrix_rank_2_update x1 y1 A1 t) (symmetric_matrix_rank_2_update x2 y2 A2 t).
Proof. acc_go. Qed.
Lemma acc_hermitian_matrix_rank_2_update : forall (O1 O2 : ops) (x1 : vec O1) (x2 : vec O2) (y1 : vec O1) (y2 : vec O2) (A1 : mat O1) (A2 : mat O2) (t : triangle),
  same_view_v x1 x2 -> same_view_v y1 y2 -> same_view_m A1 A2 ->
  same_accesses (hermitian_matrix_rank_2_update x1 y1 A1 t) (hermitian_matrix_rank_2_update x2 y2 A2 t).
Proof. acc_go. Qed.
Lemma acc_matrix_product : forall (O1 O2 : ops) (A1 : mat O1) (A2 : mat O2) (B1 : mat O1) (B2 : mat O2) (C1 : mat O1) (C2 : mat O2),
  same_view_m A1 A2 -> same_view_m B1 B2 -> same_view_m C1 C2 ->
  same_accesses (matrix_product A1 B1 C1) (matrix_product A2 B2 C2).
Proof. acc_go. Qed.
Lemma acc_matrix_product_upd : forall (O1 O2 : ops) (A1 : mat O1) (A2 : mat O2) (B1 : mat O1) (B2 : mat O2) (E1 : mat O1) (E2 : mat O2) (C1 : mat O1) (C2 : mat O2),
  same_view_m A1 A2 -> same_view_m B1 B2 -> same_view_m E1 E2 -> same_view_m C1 C2 ->
  same_accesses (matrix_product_upd A1 B1 E1 C1) (matrix_product_upd A2 B2 E2 C2).
Proof. acc_go. Qed.
Lemma acc_triangular_matrix_product_left : forall (O1 O2 : ops) (A1 : mat O1) (A2 : mat O2) (B1 : mat O1) (B2 : mat O2) (C1 : mat O1) (C2 : mat O2) (ty : ity) (t : triangle) (d : diagonal),
  same_view_m A1 A2 -> same_view_m B1 B2 -> same_view_m C1 C2 ->
  same_accesses (triangular_matrix_product_left ty A1 t d B1 C1) (triangular_matrix_product_left ty A2 t d B2 C2).
Proof. acc_go. Qed.
Lemma acc_triangular_matrix_product_right : forall (O1 O2 : ops) (B1 : mat O1) (B2 : mat O2) (A1 : mat O1) (A2 : mat O2) (C1 : mat O1) (C2 : mat O2) (ty : ity) (t : triangle) (d : diagonal),
  same_view_m B1 B2 -> same_view_m A1 A2 -> same_view_m C1 C2 ->
  same_accesses (triangular_matrix_product_right ty B1 A1 t d C1) (triangular_matrix_product_right ty B2 A2 t d C2).
Proof. acc_go. Qed.
Lemma acc_triangular_matrix_left_product : forall (O1 O2 : ops) (A1 : mat O1) (A2 : mat O2) (C1 : mat O1) (C2 : mat O2) (t : triangle) (d : diagonal),
  same_view_m A1 A2 -> same_view_m C1 C2 ->
  same_accesses (triangular_matrix_left_product A1 t d C1) (triangular_matrix_left_product A2 t d C2).
Proof. acc_go. Qed.
Lemma acc_triangular_matrix_right_product : forall (O1 O2 : ops) (A1 : mat O1) (A2 : mat O2) (C1 : mat O1) (C2 : mat O2) (t : triangle) (d : diagonal),
  same_view_m A1 A2 -> same_view_m C1 C2 ->
  same_accesses (triangular_matrix_right_product A1 t d C1) (triangular_matrix_right_product A2 t d C2).
Proof. acc_go. Qed.
Lemma acc_symmetric_matrix_product_left : forall (O1 O2 : ops) (A1 : mat O1) (A2 : mat O2) (B1 : mat O1) (B2 : mat O2) (C1 : mat O1) (C2 : mat O2) (t : triangle),
  same_view_m A1 A2 -> same_view_m B1 B2 -> same_view_m C1 C2 ->
  same_accesses (symmetric_matrix_product_left A1 t B1 C1) (symmetric_matrix_product_left A2 t B2 C2).
Proof. acc_go. Qed.
Lemma acc_symmetric_matrix_product_right : forall (O1 O2 : ops) (B1 : mat O1) (B2 : mat O2) (A1 : mat O1) (A2 : mat O2) (C1 : mat O1) (C2 : mat O2) (t : triangle),
  same_view_m B1 B2 -> same_view_m A1 A2 -> same_view_m C1 C2 ->
  same_accesses (symmetric_matrix_product_right B1 A1 t C1) (symmetric_matrix_product_right B2 A2 t C2).
Proof. acc_go. Qed.
Lemma acc_hermitian_matrix_product_left : forall (O1 O2 : ops) (A1 : mat O1) (A2 : mat O2) (B1 : mat O1) (B2 : mat O2) (C1 : mat O1) (C2 : mat O2) (t : triangle),
  same_view_m A1 A2 -> same_view_m B1 B2 -> same_view_m C1 C2 ->
  same_accesses (hermitian_matrix_product_left A1 t B1 C1) (hermitian_matrix_product_left A2 t B2 C2).
Proof. acc_go. Qed.
Lemma acc_hermitian_matrix_product_right : forall (O1 O2 : ops) (B1 : mat O1) (B2 : mat O2) (A1 : mat O1) (A2 : mat O2) (C1 : mat O1) (C2 : mat O2) (t : triangle),
  same_view_m B1 B2 -> same_view_m A1 A2 -> same_view_m C1 C2 ->
  same_accesses (hermitian_matrix_product_right B1 A1 t C1) (hermitian_matrix_product_right B2 A2 t C2).
Proof. acc_go. Qed.
Lemma acc_symmetric_matrix_rank_k_update_alpha : forall (O1 O2 : ops) (alpha1 : car O1) (alpha2 : car O2) (A1 : mat O1) (A2 : mat O2) (C1 : mat O1) (C2 : mat O2) (t : triangle),
  same_view_m A1 A2 -> same_view_m C1 C2 ->
  same_accesses (symmetric_matrix_rank_k_update_alpha alpha1 A1 C1 t) (symmetric_matrix_rank_k_update_alpha alpha2 A2 C2 t).
Proof. acc_go. Qed.
Lemma acc_symmetric_matrix_rank_k_update : forall (O1 O2 : ops) (A1 : mat O1) (A2 : mat O2) (C1 : mat O1) (C2 : mat O2) (t : triangle),
  same_view_m A1 A2 -> same_view_m C1 C2 ->
  same_accesses (symmetric_matrix_rank_k_update A1 C1 t) (symmetric_matrix_rank_k_update A2 C2 t).
Proof. acc_go. Qed.
Lemma acc_hermitian_matrix_rank_k_update_alpha : forall (O1 O2 : ops) (alpha1 : car O1) (alpha2 : car O2) (A1 : mat O1) (A2 : mat O2) (C1 : mat O1) (C2 : mat O2) (t : triangle),
  same_view_m A1 A2 -> same_view_m C1 C2 ->
  same_accesses (hermitian_matrix_rank_k_update_alpha alpha1 A1 C1 t) (hermitian_matrix_rank_k_update_alpha alpha2 A2 C2 t).
Proof. acc_go. Qed.
Lemma acc_hermitian_matrix_rank_k_update : forall (O1 O2 : ops) (A1 : mat O1) (A2 : mat O2) (C1 : mat O1) (C2 : mat O2) (t : triangle),
  same_view_m A1 A2 -> same_view_m C1 C2 ->
  same_accesses (hermitian_matrix_rank_k_update A1 C1 t) (hermitian_matrix_rank_k_update A2 C2 t).
Proof. acc_go. Qed.
Lemma acc_symmetric_matrix_rank_2k_update : forall (O1 O2 : ops) (A1 : mat O1) (A2 : mat O2) (B1 : mat O1) (B2 : mat O2) (C1 : mat O1) (C2 : mat O2) (t : triangle),
  same_view_m A1 A2 -> same_view_m B1 B2 -> same_view_m C1 C2 ->
  same_accesses (symmetric_matrix_rank_2k_update A1 B1 C1 t) (symmetric_matrix_rank_2k_update A2 B2 C2 t).
Proof. acc_go. Qed.
Lemma acc_hermitian_matrix_rank_2k_update : forall (O1 O2 : ops) (A1 : mat O1) (A2 : mat O2) (B1 : mat O1) (B2 : mat O2) (C1 : mat O1) (C2 : mat O2) (t : triangle),
  same_view_m A1 A2 -> same_view_m B1 B2 -> same_view_m C1 C2 ->
  same_accesses (hermitian_matrix_rank_2k_update A1 B1 C1 t) (hermitian_matrix_rank_2k_update A2 B2 C2 t).
Proof. acc_go. Qed.
Lemma acc_triangular_matrix_matrix_left_solve : forall (O1 O2 : ops) (A1 : mat O1) (A2 : mat O2) (B1 : mat O1) (B2 : mat O2) (X1 : mat O1) (X2 : mat O2) (ty : ity) (t : triangle) (d : diagonal),
  same_view_m A1 A2 -> same_view_m B1 B2 -> same_view_m X1 X2 ->
  same_accesses (triangular_matrix_matrix_left_solve ty A1 t d B1 X1) (triangular_matrix_matrix_left_solve ty A2 t d B2 X2).
Proof. acc_go. Qed.
Lemma acc_triangular_matrix_matrix_right_solve : forall (O1 O2 : ops) (A1 : mat O1) (A2 : mat O2) (B1 : mat O1) (B2 : mat O2) (X1 : mat O1) (X2 : mat O2) (ty : ity) (t : triangle) (d : diagonal),
  same_view_m A1 A2 -> same_view_m B1 B2 -> same_view_m X1 X2 ->
  same_accesses (triangular_matrix_matrix_right_solve ty A1 t d B1 X1) (triangular_matrix_matrix_right_solve ty A2 t d B2 X2).
Proof. acc_go. Qed.
Lemma acc_triangular_matrix_matrix_solve : forall (O1 O2 : ops) (A1 : mat O1) (A2 : mat O2) (B1 : mat O1) (B2 : mat O2) (X1 : mat O1) (X2 : mat O2) (ty : ity) (t : triangle) (d : diagonal) (s : side),
  same_view_m A1 A2 -> same_view_m B1 B2 -> same_view_m X1 X2 ->
  same_accesses (triangular_matrix_matrix_solve ty A1 t d s B1 X1) (triangular_matrix_matrix_solve ty A2 t d s B2 X2).
Proof. acc_go. Qed.
Lemma acc_vector_abs_sum : forall (O1 O2 : ops) (F1 F2 : rops) (M1 : mags O1 F1) (M2 : mags O2 F2) (v1 : vec O1) (v2 : vec O2) (init1 : rcar F1) (init2 : rcar F2),
  arithmetic M1 = arithmetic M2 -> same_view_v v1 v2 ->
  same_accesses (vector_abs_sum M1 v1 init1) (vector_abs_sum M2 v2 init2).
Proof. acc_go. Qed.
Lemma acc_vector_abs_sum_noinit : forall (O1 O2 : ops) (F1 F2 : rops) (M1 : mags O1 F1) (M2 : mags O2 F2) (v1 : vec O1) (v2 : vec O2),
  arithmetic M1 = arithmetic M2 -> same_view_v v1 v2 ->
  same_accesses (vector_abs_sum_noinit M1 v1) (vector_abs_sum_noinit M2 v2).
Proof. acc_go. Qed.
Lemma acc_matrix_frob_norm : forall (O1 O2 : ops) (F1 F2 : rops) (M1 : mags O1 F1) (M2 : mags O2 F2) (A1 : mat O1) (A2 : mat O2) (init1 : rcar F1) (init2 : rcar F2),
  same_view_m A1 A2 ->
  same_accesses (matrix_frob_norm M1 A1 init1) (matrix_frob_norm M2 A2 init2).
Proof. acc_go. Qed.
Lemma acc_matrix_frob_norm_noinit : forall (O1 O2 : ops) (F1 F2 : rops) (M1 : mags O1 F1) (M2 : mags O2 F2) (A1 : mat O1) (A2 : mat O2),
  same_view_m A1 A2 ->
  same_accesses (matrix_frob_norm_noinit M1 A1) (matrix_frob_norm_noinit M2 A2).
Proof. acc_go. Qed.
Lemma acc_matrix_inf_norm : forall (O1 O2 : ops) (F1 F2 : rops) (M1 : mags O1 F1) (M2 : mags O2 F2) (A1 : mat O1) (A2 : mat O2) (init1 : rcar F1) (init2 : rcar F2),
  same_view_m A1 A2 ->
  same_accesses (matrix_inf_norm M1 A1 init1) (matrix_inf_norm M2 A2 init2).
Proof. acc_go. Qed.
Lemma acc_matrix_inf_norm_noinit : forall (O1 O2 : ops) (F1 F2 : rops) (M1 : mags O1 F1) (M2 : mags O2 F2) (A1 : mat O1) (A2 : mat O2),
  same_view_m A1 A2 ->
  same_accesses (matrix_inf_norm_noinit M1 A1) (matrix_inf_norm_noinit M2 A2).
Proof. acc_go. Qed.
Lemma acc_matrix_one_norm : forall (O1 O2 : ops) (F1 F2 : rops) (M1 : mags O1 F1) (M2 : mags O2 F2) (A1 : mat O1) (A2 : mat O2) (init1 : rcar F1) (init2 : rcar F2),
  same_view_m A1 A2 ->
  same_accesses (matrix_one_norm M1 A1 init1) (matrix_one_norm M2 A2 init2).
Proof. acc_go. Qed.
Lemma acc_matrix_one_norm_noinit : forall (O1 O2 : ops) (F1 F2 : rops) (M1 : mags O1 F1) (M2 : mags O2 F2) (A1 : mat O1) (A2 : mat O2),
  same_view_m A1 A2 ->
  same_accesses (matrix_one_norm_noinit M1 A1) (matrix_one_norm_noinit M2 A2).
Proof. acc_go. Qed.
Lemma acc_kk_matrix_rank_1_update : forall (O1 O2 : ops) (x1 : vec O1) (x2 : vec O2) (y1 : vec O1) (y2 : vec O2) (A1 : mat O1) (A2 : mat O2),
  same_view_v x1 x2 -> same_view_v y1 y2 -> same_view_m A1 A2 ->
  same_accesses_par (kk_matrix_rank_1_update x1 y1 A1) (kk_matrix_rank_1_update x2 y2 A2).
Proof. acc_go. Qed.
Lemma acc_kk_matrix_rank_1_update_conj : forall (O1 O2 : ops) (x1 : vec O1) (x2 : vec O2) (y1 : vec O1) (y2 : vec O2) (A1 : mat O1) (A2 : mat O2),
  same_view_v x1 x2 -> same_view_v y1 y2 -> same_view_m A1 A2 ->
  same_accesses_par (kk_matrix_rank_1_update_conj x1 y1 A1) (kk_matrix_rank_1_update_conj x2 y2 A2).
Proof. acc_go. Qed.
Lemma acc_kk_symmetric_matrix_rank_1_update : forall (O1 O2 : ops) (x1 : vec O1) (x2 : vec O2) (A1 : mat O1) (A2 : mat O2) (t : triangle),
  same_view_v x1 x2 -> same_view_m A1 A2 ->
  same_accesses_par (kk_symmetric_matrix_rank_1_update x1 A1 t) (kk_symmetric_matrix_rank_1_update x2 A2 t).
Proof. acc_go. Qed.
Lemma acc_kk_hermitian_matrix_rank_1_update : forall (O1 O2 : ops) (x1 : vec O1) (x2 : vec O2) (A1 : mat O1) (A2 : mat O2) (t : triangle),
  same_view_v x1 x2 -> same_view_m A1 A2 ->
  same_accesses_par (kk_hermitian_matrix_rank_1_update x1 A1 t) (kk_hermitian_matrix_rank_1_update x2 A2 t).
Proof. acc_go. Qed.
Lemma acc_kk_symmetric_matrix_rank_2_update : forall (O1 O2 : ops) (x1 : vec O1) (x2 : vec O2) (y1 : vec O1) (y2 : vec O2) (A1 : mat O1) (A2 : mat O2) (t : triangle),
  same_view_v x1 x2 -> same_view_v y1 y2 -> same_view_m A1 A2 ->
  same_accesses_par (kk_symmetric_matrix_rank_2_update x1 y1 A1 t) (kk_symmetric_matrix_rank_2_update x2 y2 A2 t).
Proof. acc_go. Qed.
Lemma acc_kk_hermitian_matrix_rank_2_update : forall (O1 O2 : ops) (x1 : vec O1) (x2 : vec O2) (y1 : vec O1) (y2 : vec O2) (A1 : mat O1) (A2 : mat O2) (t : triangle),
  same_view_v x1 x2 -> same_view_v y1 y2 -> same_view_m A1 A2 ->
  same_accesses_par (kk_hermitian_matrix_rank_2_update x1 y1 A1 t) (kk_hermitian_matrix_rank_2_update x2 y2 A2 t).
Proof. acc_go. Qed.
Lemma acc_kk_symmetric_matrix_rank_k_update : forall (O1 O2 : ops) (alpha1 : car O1) (alpha2 : car O2) (A1 : mat O1) (A2 : mat O2) (C1 : mat O1) (C2 : mat O2) (t : triangle),
  same_view_m A1 A2 -> same_view_m C1 C2 ->
  same_accesses_par (kk_symmetric_matrix_rank_k_update alpha1 A1 C1 t) (kk_symmetric_matrix_rank_k_update alpha2 A2 C2 t).
Proof. acc_go. Qed.
Lemma acc_kk_hermitian_matrix_rank_k_update : forall (O1 O2 : ops) (alpha1 : car O1) (alpha2 : car O2) (A1 : mat O1) (A2 : mat O2) (C1 : mat O1) (C2 : mat O2) (t : triangle),
  same_view_m A1 A2 -> same_view_m C1 C2 ->
  same_accesses_par (kk_hermitian_matrix_rank_k_update alpha1 A1 C1 t) (kk_hermitian_matrix_rank_k_update alpha2 A2 C2 t).
Proof. acc_go. Qed.
Lemma acc_kk_symmetric_matrix_rank_2k_update : forall (O1 O2 : ops) (A1 : mat O1) (A2 : mat O2) (B1 : mat O1) (B2 : mat O2) (C1 : mat O1) (C2 : mat O2) (t : triangle),
  same_view_m A1 A2 -> same_view_m B1 B2 -> same_view_m C1 C2 ->
  same_accesses_par (kk_symmetric_matrix_rank_2k_update A1 B1 C1 t) (kk_symmetric_matrix_rank_2k_update A2 B2 C2 t).
Proof. acc_go. Qed.
Lemma acc_kk_hermitian_matrix_rank_2k_update : forall (O1 O2 : ops) (A1 : mat O1) (A2 : mat O2) (B1 : mat O1) (B2 : mat O2) (C1 : mat O1) (C2 : mat O2) (t : triangle),
  same_view_m A1 A2 -> same_view_m B1 B2 -> same_view_m C1 C2 ->
  same_accesses_par (kk_hermitian_matrix_rank_2k_update A1 B1 C1 t) (kk_hermitian_matrix_rank_2k_update A2 B2 C2 t).
Proof. acc_go. Qed.
Lemma acc_kk_matrix_vector_product_upd : forall (O1 O2 : ops) (A1 : mat O1) (A2 : mat O2) (x1 : vec O1) (x2 : vec O2) (y1 : vec O1) (y2 : vec O2) (z1 : vec O1) (z2 : vec O2),
  same_view_m A1 A2 -> same_view_v x1 x2 -> same_view_v y1 y2 -> same_view_v z1 z2 ->
  same_accesses_par (kk_matrix_vector_product_upd A1 x1 y1 z1) (kk_matrix_vector_product_upd A2 x2 y2 z2).
Proof. acc_go. Qed.
Lemma acc_kk_triangular_matrix_vector_product : forall (O1 O2 : ops) (A1 : mat O1) (A2 : mat O2) (x1 : vec O1) (x2 : vec O2) (y1 : vec O1) (y2 : vec O2) (t : triangle) (d : diagonal),
  same_view_m A1 A2 -> same_view_v x1 x2 -> same_view_v y1 y2 ->
  same_accesses_par (kk_triangular_matrix_vector_product A1 t d x1 y1) (kk_triangular_matrix_vector_product A2 t d x2 y2).
Proof. acc_go. Qed.
Lemma acc_kk_triangular_matrix_vector_product_upd : forall (O1 O2 : ops) (A1 : mat O1) (A2 : mat O2) (x1 : vec O1) (x2 : vec O2) (y1 : vec O1) (y2 : vec O2) (z1 : vec O1) (z2 : vec O2) (t : triangle) (d : diagonal),
  same_view_m A1 A2 -> same_view_v x1 x2 -> same_view_v y1 y2 -> same_view_v z1 z2 ->
  same_accesses_par (kk_triangular_matrix_vector_product_upd A1 t d x1 y1 z1) (kk_triangular_matrix_vector_product_upd A2 t d x2 y2 z2).
Proof. acc_go. Qed.
Lemma acc_kk_symmetric_matrix_right_product_upd : forall (O1 O2 : ops) (A1 : mat O1) (A2 : mat O2) (B1 : mat O1) (B2 : mat O2) (E1 : mat O1) (E2 : mat O2) (C1 : mat O1) (C2 : mat O2) (t : triangle),
  same_view_m A1 A2 -> same_view_m B1 B2 -> same_view_m E1 E2 -> same_view_m C1 C2 ->
  same_accesses_par (kk_symmetric_matrix_right_product_upd A1 t B1 E1 C1) (kk_symmetric_matrix_right_product_upd A2 t B2 E2 C2).
Proof. acc_go. Qed.
Lemma acc_kk_hermitian_matrix_right_product_upd : forall (O1 O2 : ops) (A1 : mat O1) (A2 : mat O2) (B1 : mat O1) (B2 : mat O2) (E1 : mat O1) (E2 : mat O2) (C1 : mat O1) (C2 : mat O2) (t : triangle),
  same_view_m A1 A2 -> same_view_m B1 B2 -> same_view_m E1 E2 -> same_view_m C1 C2 ->
  same_accesses_par (kk_hermitian_matrix_right_product_upd A1 t B1 E1 C1) (kk_hermitian_matrix_right_product_upd A2 t B2 E2 C2).
Proof. acc_go. Qed.
Lemma acc_kk_triangular_matrix_left_product_unit : forall (O1 O2 : ops) (A1 : mat O1) (A2 : mat O2) (B1 : mat O1) (B2 : mat O2) (C1 : mat O1) (C2 : mat O2) (t : triangle),
  same_view_m A1 A2 -> same_view_m B1 B2 -> same_view_m C1 C2 ->
  same_accesses_par (kk_triangular_matrix_left_product_unit A1 t B1 C1) (kk_triangular_matrix_left_product_unit A2 t B2 C2).
Proof. acc_go. Qed.
Lemma acc_kk_triangular_matrix_right_product_unit : forall (O1 O2 : ops) (A1 : mat O1) (A2 : mat O2) (B1 : mat O1) (B2 : mat O2) (C1 : mat O1) (C2 : mat O2) (t : triangle),
  same_view_m A1 A2 -> same_view_m B1 B2 -> same_view_m C1 C2 ->
  same_accesses_par (kk_triangular_matrix_right_product_unit A1 t B1 C1) (kk_triangular_matrix_right_product_unit A2 t B2 C2).
Proof. acc_go. Qed.
Lemma acc_kk_triangular_matrix_left_product_inplace_unit : forall (O1 O2 : ops) (A1 : mat O1) (A2 : mat O2) (C1 : mat O1) (C2 : mat O2) (t : triangle),
  same_view_m A1 A2 -> same_view_m C1 C2 ->
  same_accesses_par (kk_triangular_matrix_left_product_inplace_unit A1 t C1) (kk_triangular_matrix_left_product_inplace_unit A2 t C2).
Proof. acc_go. Qed.
Lemma acc_kk_triangular_matrix_right_product_inplace_unit : forall (O1 O2 : ops) (A1 : mat O1) (A2 : mat O2) (C1 : mat O1) (C2 : mat O2) (t : triangle),
  same_view_m A1 A2 -> same_view_m C1 C2 ->
  same_accesses_par (kk_triangular_matrix_right_product_inplace_unit A1 t C1) (kk_triangular_matrix_right_product_inplace_unit A2 t C2).
Proof. acc_go. Qed.
Lemma acc_kk_copy_2 : forall (O1 O2 : ops) (x1 : mat O1) (x2 : mat O2) (y1 : mat O1) (y2 : mat O2),
  same_view_m x1 x2 -> same_view_m y1 y2 ->
  same_accesses_par (kk_copy_2 x1 y1) (kk_copy_2 x2 y2).
Proof. acc_go. Qed.
Lemma acc_kk_swap_1 : forall (O1 O2 : ops) (x1 : vec O1) (x2 : vec O2) (y1 : vec O1) (y2 : vec O2),
  same_view_v x1 x2 -> same_view_v y1 y2 ->
  same_accesses_par (kk_swap_1 x1 y1) (kk_swap_1 x2 y2).
Proof. acc_go. Qed.
Lemma acc_kk_swap_2 : forall (O1 O2 : ops) (x1 : mat O1) (x2 : mat O2) (y1 : mat O1) (y2 : mat O2),
  same_view_m x1 x2 -> same_view_m y1 y2 ->
  same_accesses_par (kk_swap_2 x1 y1) (kk_swap_2 x2 y2).
Proof. acc_go. Qed.
Lemma acc_kk_symmetric_matrix_vector_product : forall (O1 O2 : ops) (A1 : mat O1) (A2 : mat O2) (x1 : vec O1) (x2 : vec O2) (y1 : vec O1) (y2 : vec O2) (t : triangle),
  same_view_m A1 A2 -> same_view_v x1 x2 -> same_view_v y1 y2 ->
  same_accesses_par (kk_symmetric_matrix_vector_product A1 t x1 y1) (kk_symmetric_matrix_vector_product A2 t x2 y2).
Proof. acc_go. Qed.
Lemma acc_kk_symmetric_matrix_vector_product_upd : forall (O1 O2 : ops) (A1 : mat O1) (A2 : mat O2) (x1 : vec O1) (x2 : vec O2) (y1 : vec O1) (y2 : vec O2) (z1 : vec O1) (z2 : vec O2) (t : triangle),
  same_view_m A1 A2 -> same_view_v x1 x2 -> same_view_v y1 y2 -> same_view_v z1 z2 ->
  same_accesses_par (kk_symmetric_matrix_vector_product_upd A1 t x1 y1 z1) (kk_symmetric_matrix_vector_product_upd A2 t x2 y2 z2).
Proof. acc_go. Qed.
Lemma acc_kk_hermitian_matrix_vector_product : forall (O1 O2 : ops) (A1 : mat O1) (A2 : mat O2) (x1 : vec O1) (x2 : vec O2) (y1 : vec O1) (y2 : vec O2) (t : triangle),
  same_view_m A1 A2 -> same_view_v x1 x2 -> same_view_v y1 y2 ->
  same_accesses_par (kk_hermitian_matrix_vector_product A1 t x1 y1) (kk_hermitian_matrix_vector_product A2 t x2 y2).
Proof. acc_go. Qed.
Lemma acc_kk_hermitian_matrix_vector_product_upd : forall (O1 O2 : ops) (A1 : mat O1) (A2 : mat O2) (x1 : vec O1) (x2 : vec O2) (y1 : vec O1) (y2 : vec O2) (z1 : vec O1) (z2 : vec O2) (t : triangle),
  same_view_m A1 A2 -> same_view_v x1 x2 -> same_view_v y1 y2 -> same_view_v z1 z2 ->
  same_accesses_par (kk_hermitian_matrix_vector_product_upd A1 t x1 y1 z1) (kk_hermitian_matrix_vector_product_upd A2 t x2 y2 z2).
Proof. acc_go. Qed.
Lemma acc_kk_symmetric_matrix_left_product : forall (O1 O2 : ops) (A1 : mat O1) (A2 : mat O2) (B1 : mat O1) (B2 : mat O2) (C1 : mat O1) (C2 : mat O2) (t : triangle),
  same_view_m A1 A2 -> same_view_m B1 B2 -> same_view_m C1 C2 ->
  same_accesses_par (kk_symmetric_matrix_left_product A1 t B1 C1) (kk_symmetric_matrix_left_product A2 t B2 C2).
Proof. acc_go. Qed.
Lemma acc_kk_symmetric_matrix_left_product_upd : forall (O1 O2 : ops) (A1 : mat O1) (A2 : mat O2) (B1 : mat O1) (B2 : mat O2) (E1 : mat O1) (E2 : mat O2) (C1 : mat O1) (C2 : mat O2) (t : triangle),
  same_view_m A1 A2 -> same_view_m B1 B2 -> same_view_m E1 E2 -> same_view_m C1 C2 ->
  same_accesses_par (kk_symmetric_matrix_left_product_upd A1 t B1 E1 C1) (kk_symmetric_matrix_left_product_upd A2 t B2 E2 C2).
Proof. acc_go. Qed.
Lemma acc_kk_symmetric_matrix_right_product : forall (O1 O2 : ops) (A1 : mat O1) (A2 : mat O2) (B1 : mat O1) (B2 : mat O2) (C1 : mat O1) (C2 : mat O2) (t : triangle),
  same_view_m A1 A2 -> same_view_m B1 B2 -> same_view_m C1 C2 ->
  same_accesses_par (kk_symmetric_matrix_right_product A1 t B1 C1) (kk_symmetric_matrix_right_product A2 t B2 C2).
Proof. acc_go. Qed.
Lemma acc_kk_hermitian_matrix_left_product : forall (O1 O2 : ops) (A1 : mat O1) (A2 : mat O2) (B1 : mat O1) (B2 : mat O2) (C1 : mat O1) (C2 : mat O2) (t : triangle),
  same_view_m A1 A2 -> same_view_m B1 B2 -> same_view_m C1 C2 ->
  same_accesses_par (kk_hermitian_matrix_left_product A1 t B1 C1) (kk_hermitian_matrix_left_product A2 t B2 C2).
Proof. acc_go. Qed.
Lemma acc_kk_hermitian_matrix_left_product_upd : forall (O1 O2 : ops) (A1 : mat O1) (A2 : mat O2) (B1 : mat O1) (B2 : mat O2) (E1 : mat O1) (E2 : mat O2) (C1 : mat O1) (C2 : mat O2) (t : triangle),
  same_view_m A1 A2 -> same_view_m B1 B2 -> same_view_m E1 E2 -> same_view_m C1 C2 ->
  same_accesses_par (kk_hermitian_matrix_left_product_upd A1 t B1 E1 C1) (kk_hermitian_matrix_left_product_upd A2 t B2 E2 C2).
Proof. acc_go. Qed.
Lemma acc_kk_hermitian_matrix_right_product : forall (O1 O2 : ops) (A1 : mat O1) (A2 : mat O2) (B1 : mat O1) (B2 : mat O2) (C1 : mat O1) (C2 : mat O2) (t : triangle),
  same_view_m A1 A2 -> same_view_m B1 B2 -> same_view_m C1 C2 ->
  same_accesses_par (kk_hermitian_matrix_right_product A1 t B1 C1) (kk_hermitian_matrix_right_product A2 t B2 C2).
Proof. acc_go. Qed.

(** Lemmas for C86, algorithm by algorithm (generated: one statement and one tactic call each). *)
From Coq Require Import List Arith NArith ZArith Bool Lia.
From Verif Require Import Mem Scalar View Spec Idx Blas1 Blas2 Blas3 Norm Par KK KKNorm SpecRel PfRel.
Import ListNotations.
Set Implicit Arguments.

Ltac exts := repeat match goal with
  | |- context [vext (conjugated_v ?b ?c ?x)] => change (vext (conjugated_v b c x)) with (vext x)
  | |- context [vext (view_v ?x)] => change (vext (view_v x)) with (vext x)
  | E : vec_related _ ?x _ |- context [vext ?x] => rewrite (proj1 (proj2 E))
  | E : mat_related _ ?x _ |- context [ext0 ?x] => rewrite (proj1 (proj2 E))
  | E : mat_related _ ?x _ |- context [ext1 ?x] => rewrite (proj1 (proj2 (proj2 E)))
  end.
Ltac val := first [ assumption | exact Logic.I
  | match goal with
    | H : respects ?R |- ?R zero zero => apply (resp_zero H)
    | H : respects ?R |- ?R (add _ _) (add _ _) => apply (resp_add H); val
    | H : respects ?R |- ?R (sub _ _) (sub _ _) => apply (resp_sub H); val
    | H : respects ?R |- ?R (mul _ _) (mul _ _) => apply (resp_mul H); val
    | H : respects ?R |- ?R (conj _) (conj _) => apply (resp_conj H); val
    | H : respects ?R |- ?R (re _) (re _) => apply (resp_re H); val
    | H : respects_op ?R ?f ?g |- ?R (?f _ _) (?g _ _) => apply H; val
    | H : respects_mag ?S |- ?S r0 r0 => apply (resp_r0 H)
    | H : respects_mag ?S |- ?S r1 r1 => apply (resp_r1 H)
    | H : respects_mag ?S |- ?S (radd _ _) (radd _ _) => apply (resp_radd H); val
    | H : respects_mag ?S |- ?S (rmul _ _) (rmul _ _) => apply (resp_rmul H); val
    | H : respects_mag ?S |- ?S (rdiv _ _) (rdiv _ _) => apply (resp_rdiv H); val
    | H : respects_mag ?S |- ?S (rsqrt _) (rsqrt _) => apply (resp_rsqrt H); val
    | H : respects_mag ?S |- ?S (rabs _) (rabs _) => apply (resp_rabs H); val
    | H : forall x1 x2, _ -> ?S (eabs _ x1) (eabs _ x2) |- ?S (eabs _ _) (eabs _ _) => apply H; val
    | H : forall x1 x2, _ -> ?S (ereal _ x1) (ereal _ x2) |- ?S (ereal _ _) (ereal _ _) => apply H; val
    | H : forall x1 x2, _ -> ?S (eimag _ x1) (eimag _ x2) |- ?S (eimag _ _) (eimag _ _) => apply H; val
    | |- ssq_related _ (Ssq _ _) (Ssq _ _) => split; simpl; val
    | H : ssq_related ?S ?s1 ?s2 |- ?S (scaling_factor ?s1) (scaling_factor ?s2) => exact (proj1 H)
    | H : ssq_related ?S ?s1 ?s2 |- ?S (scaled_sum_of_squares ?s1) (scaled_sum_of_squares ?s2) => exact (proj2 H)
    | H : respects_mag ?S |- ?S (if rltb ?a ?b then _ else _) (if rltb ?c ?d then _ else _) =>
        rewrite (@resp_rltb _ _ _ H a c b d) by val; destruct (rltb c d); val
    | |- vec_related _ (view_v _) (view_v _) => apply like_view_v; val
    | |- vec_related _ (conjugated_v _ _ _) (conjugated_v _ _ _) => apply like_conjugated_v; val
    end ].
Ltac rel_of T k := match T with
  | unit => k constr:(fun _ _ : unit => True)
  | car _ => match goal with H : respects ?R |- _ => k R end
  | rcar _ => match goal with H : respects_mag ?S |- _ => k S end
  | @sum_of_squares_result _ => match goal with H : respects_mag ?S |- _ => k (ssq_related S) end
  end.
Ltac alike := exts; lazymatch goal with
  | |- like _ _ (bind (A := ?T) _ _) (bind _ _) => rel_of T ltac:(fun W => eapply like_bind with (P := W); [alike | intros ? ? ?; alike])
  | |- like _ _ (for_range _ _ _) (for_range _ _ _) => apply like_for_range; intros ?; alike
  | |- like _ _ (for_down _ _) (for_down _ _) => apply like_for_down; intros ?; alike
  | |- like _ _ (fold_range (A := ?T) _ _ _ _) _ => rel_of T ltac:(fun W => apply like_fold_range with (P := W); [intros ? ? ? ?; alike | val])
  | |- like _ _ (when _ _) (when _ _) => apply like_when; alike
  | |- like _ _ (from_index _ _) (from_index _ _) => apply like_from; intros ?; alike
  | |- like _ _ (vget _ _) (vget _ _) => apply like_vget; val
  | |- like _ _ (mget _ _ _) (mget _ _ _) => apply like_mget; val
  | |- like _ _ (vset _ _ _) (vset _ _ _) => apply like_vset; val
  | |- like _ _ (mset _ _ _ _) (mset _ _ _ _) => apply like_mset; val
  | |- like _ _ (Ret _) (Ret _) => simpl; val
  | |- like _ _ (if rltb ?a ?b then _ else _) (if rltb ?c ?d then _ else _) =>
      match goal with H : respects_mag _ |- _ => rewrite (@resp_rltb _ _ _ H a c b d) by val; destruct (rltb c d); alike end
  | |- like _ _ (if reqb ?a ?b then _ else _) (if reqb ?c ?d then _ else _) =>
      match goal with H : respects_mag _ |- _ => rewrite (@resp_reqb _ _ _ H a c b d) by val; destruct (reqb c d); alike end
  | |- like _ _ (if ?b then _ else _) (if ?b then _ else _) => destruct b; alike
  | |- par_like _ (check_eq _ _ _) (check_eq _ _ _) => apply check_like; alike
  | |- par_like _ (view_m _ _) (view_m _ _) => apply view_like; [val | intros ? ? ?; alike]
  | |- par_like _ (PFor _ _ _) (PFor _ _ _) => split; [reflexivity | split; [intros ?; unfold body_like; alike | alike]]
  | |- par_like _ PDone PDone => exact Logic.I
  | |- par_like _ (par_for _ _ _) (par_for _ _ _) => apply par_for_like; intros ?; alike
  | |- par_like _ (if ?b then _ else _) (if ?b then _ else _) => destruct b; alike
  end.
Ltac opened := unfold
  copy_1, copy_2, swap_1, swap_2, scale_1, scale_2, add_1, add_2, dotc_noinit, dot_noinit, dotc, dot, apply_givens_rotation, apply_givens_rotation_c,
  matrix_vector_product, matrix_vector_product_upd, symmetric_matrix_vector_product, symmetric_matrix_vector_product_upd,
  hermitian_matrix_vector_product, hermitian_matrix_vector_product_upd, triangular_matrix_vector_product,
  triangular_matrix_vector_product_upd, triangular_matrix_vector_product_inplace,
  triangular_matrix_vector_solve, triangular_matrix_vector_solve_with, trsv_lower, trsv_upper, matrix_rank_1_update_c, matrix_rank_1_update,
  symmetric_matrix_rank_1_update_alpha, symmetric_matrix_rank_1_update, hermitian_matrix_rank_1_update_alpha, hermitian_matrix_rank_1_update,
  symmetric_matrix_rank_2_update, hermitian_matrix_rank_2_update, zero_rows, copy_rows, tri_mv_loop, trmv_loop,
  matrix_product, matrix_product_upd, triangular_matrix_product_left, triangular_matrix_product_right, triangular_matrix_left_product,
  triangular_matrix_right_product, symmetric_matrix_product_left, symmetric_matrix_product_right, hermitian_matrix_product_left, hermitian_matrix_product_right,
  symmetric_matrix_rank_k_update_alpha, symmetric_matrix_rank_k_update, hermitian_matrix_rank_k_update_alpha, hermitian_matrix_rank_k_update,
  symmetric_matrix_rank_2k_update, hermitian_matrix_rank_2k_update, triangular_matrix_matrix_solve, triangular_matrix_matrix_left_solve,
  triangular_matrix_matrix_right_solve, trsm_upper_left, trsm_lower_left, trsm_upper_right, trsm_lower_right,
  vector_abs_sum_noinit, vector_abs_sum, vector_two_norm_noinit, vector_two_norm, vector_sum_of_squares, ssq_step, matrix_frob_norm_noinit, matrix_frob_norm, frob_step,
  matrix_inf_norm_noinit, matrix_inf_norm, matrix_one_norm_noinit, matrix_one_norm, std_max,
  kk_matrix_rank_1_update, kk_matrix_rank_1_update_conj, kk_symmetric_matrix_rank_1_update, kk_hermitian_matrix_rank_1_update, kk_symmetric_matrix_rank_2_update,
  kk_hermitian_matrix_rank_2_update, kk_symmetric_matrix_rank_k_update, kk_hermitian_matrix_rank_k_update, kk_symmetric_matrix_rank_2k_update,
  kk_hermitian_matrix_rank_2k_update, kk_matrix_vector_product_upd, kk_triangular_matrix_vector_product, kk_triangular_matrix_vector_product_upd,
  kk_symmetric_matrix_vector_product, kk_symmetric_matrix_vector_product_upd, kk_hermitian_matrix_vector_product, kk_hermitian_matrix_vector_product_upd,
  kk_symmetric_matrix_left_product, kk_symmetric_matrix_left_product_upd, kk_symmetric_matrix_right_product, kk_symmetric_matrix_right_product_upd,
  kk_hermitian_matrix_left_product, kk_hermitian_matrix_left_product_upd, kk_hermitian_matrix_right_product, kk_hermitian_matrix_right_product_upd,
  kk_triangular_matrix_left_product_unit, kk_triangular_matrix_right_product_unit, kk_triangular_matrix_left_product_inplace_unit, kk_triangular_matrix_right_product_inplace_unit,
  kk_sy_he_mv, kk_sy_he_mv_upd, kk_sy_he_left, kk_sy_he_left_upd, kk_sy_he_right, check_left, check_right, check_E, kk_product, kk_left_term, kk_right_term,
  kk_trmm_left, kk_trmm_right, kk_sum, kk_tri_row, kk_trmv_row, for_each_triangle_matrix_element, for_each_upper, for_each_matrix_element,
  kk_copy_2, kk_swap_1, kk_swap_2, make_real, vacc_add, macc_add.
Ltac cases := repeat match goal with
  | x : triangle |- _ => destruct x
  | x : side |- _ => destruct x
  | x : diagonal |- _ => destruct x
  end.
(** A program that returns nothing: its result is tt on both sides. *)
Lemma like_unit : forall (O1 O2 : ops) (R : O1 -> O2 -> Prop) p1 p2, like R (fun _ _ : unit => True) p1 p2 -> related_runs R eq p1 p2.
Proof.
  intros O1 O2 R p1 p2 H m1 m2 Hm. assert (K := @like_runs _ _ _ _ _ _ _ _ H m1 m2 Hm).
  destruct (run p1 m1) as [[] ?|], (run p2 m2) as [[] ?|]; tauto.
Qed.
Ltac rel_go := intros;
  try match goal with H : mags_related _ _ _ _ |- _ => destruct H as [? [? [? ?]]] end;
  first [apply like_unit | apply like_runs | apply par_like_related]; opened;
  try match goal with E : arithmetic _ = arithmetic _ |- _ => rewrite E end;
  cases; simpl is_explicit; alike.

Lemma rel_copy_1 : forall (O1 O2 : ops) (R : O1 -> O2 -> Prop) (x1 : vec O1) (x2 : vec O2) (y1 : vec O1) (y2 : vec O2),
  respects R -> vec_related R x1 x2 -> vec_related R y1 y2 -> 
  related_runs R eq (copy_1 x1 y1) (copy_1 x2 y2).
Proof. rel_go. Qed.
Lemma rel_copy_2 : forall (O1 O2 : ops) (R : O1 -> O2 -> Prop) (x1 : mat O1) (x2 : mat O2) (y1 : mat O1) (y2 : mat O2),
  respects R -> mat_related R x1 x2 -> mat_related R y1 y2 -> 
  related_runs R eq (copy_2 x1 y1) (copy_2 x2 y2).
Proof. rel_go. Qed.
Lemma rel_swap_1 : forall (O1 O2 : ops) (R : O1 -> O2 -> Prop) (x1 : vec O1) (x2 : vec O2) (y1 : vec O1) (y2 : vec O2),
  respects R -> vec_related R x1 x2 -> vec_related R y1 y2 -> 
  related_runs R eq (swap_1 x1 y1) (swap_1 x2 y2).
Proof. rel_go. Qed.
Lemma rel_swap_2 : forall (O1 O2 : ops) (R : O1 -> O2 -> Prop) (x1 : mat O1) (x2 : mat O2) (y1 : mat O1) (y2 : mat O2),
  respects R -> mat_related R x1 x2 -> mat_related R y1 y2 -> 
  related_runs R eq (swap_2 x1 y1) (swap_2 x2 y2).
Proof. rel_go. Qed.
Lemma rel_scale_1 : forall (O1 O2 : ops) (R : O1 -> O2 -> Prop) (alpha1 : car O1) (alpha2 : car O2) (x1 : vec O1) (x2 : vec O2),
  respects R -> R alpha1 alpha2 -> vec_related R x1 x2 -> 
  related_runs R eq (scale_1 alpha1 x1) (scale_1 alpha2 x2).
Proof. rel_go. Qed.
Lemma rel_scale_2 : forall (O1 O2 : ops) (R : O1 -> O2 -> Prop) (alpha1 : car O1) (alpha2 : car O2) (A1 : mat O1) (A2 : mat O2),
  respects R -> R alpha1 alpha2 -> mat_related R A1 A2 -> 
  related_runs R eq (scale_2 alpha1 A1) (scale_2 alpha2 A2).
Proof. rel_go. Qed.
Lemma rel_add_1 : forall (O1 O2 : ops) (R : O1 -> O2 -> Prop) (x1 : vec O1) (x2 : vec O2) (y1 : vec O1) (y2 : vec O2) (z1 : vec O1) (z2 : vec O2),
  respects R -> vec_related R x1 x2 -> vec_related R y1 y2 -> vec_related R z1 z2 -> 
  related_runs R eq (add_1 x1 y1 z1) (add_1 x2 y2 z2).
Proof. rel_go. Qed.
Lemma rel_add_2 : forall (O1 O2 : ops) (R : O1 -> O2 -> Prop) (x1 : mat O1) (x2 : mat O2) (y1 : mat O1) (y2 : mat O2) (z1 : mat O1) (z2 : mat O2),
  respects R -> mat_related R x1 x2 -> mat_related R y1 y2 -> mat_related R z1 z2 -> 
  related_runs R eq (add_2 x1 y1 z1) (add_2 x2 y2 z2).
Proof. rel_go. Qed.
Lemma rel_dot : forall (O1 O2 : ops) (R : O1 -> O2 -> Prop) (v11 : vec O1) (v12 : vec O2) (v21 : vec O1) (v22 : vec O2) (init1 : car O1) (init2 : car O2),
  respects R -> vec_related R v11 v12 -> vec_related R v21 v22 -> R init1 init2 -> 
  related_runs R R (dot v11 v21 init1) (dot v12 v22 init2).
Proof. rel_go. Qed.
Lemma rel_dotc : forall (O1 O2 : ops) (R : O1 -> O2 -> Prop) (v11 : vec O1) (v12 : vec O2) (v21 : vec O1) (v22 : vec O2) (init1 : car O1) (init2 : car O2) (fix_nc : bool) (noncomplex : bool),
  respects R -> vec_related R v11 v12 -> vec_related R v21 v22 -> R init1 init2 -> 
  related_runs R R (dotc fix_nc noncomplex v11 v21 init1) (dotc fix_nc noncomplex v12 v22 init2).
Proof. rel_go. Qed.
Lemma rel_dot_noinit : forall (O1 O2 : ops) (R : O1 -> O2 -> Prop) (v11 : vec O1) (v12 : vec O2) (v21 : vec O1) (v22 : vec O2),
  respects R -> vec_related R v11 v12 -> vec_related R v21 v22 -> 
  related_runs R R (dot_noinit v11 v21) (dot_noinit v12 v22).
Proof. rel_go. Qed.
Lemma rel_dotc_noinit : forall (O1 O2 : ops) (R : O1 -> O2 -> Prop) (v11 : vec O1) (v12 : vec O2) (v21 : vec O1) (v22 : vec O2) (fix_nc : bool) (noncomplex : bool),
  respects R -> vec_related R v11 v12 -> vec_related R v21 v22 -> 
  related_runs R R (dotc_noinit fix_nc noncomplex v11 v21) (dotc_noinit fix_nc noncomplex v12 v22).
Proof. rel_go. Qed.
Lemma rel_apply_givens_rotation : forall (O1 O2 : ops) (R : O1 -> O2 -> Prop) (x1 : vec O1) (x2 : vec O2) (y1 : vec O1) (y2 : vec O2) (c1 : car O1) (c2 : car O2) (s1 : car O1) (s2 : car O2),
  respects R -> vec_related R x1 x2 -> vec_related R y1 y2 -> R c1 c2 -> R s1 s2 -> 
  related_runs R eq (apply_givens_rotation x1 y1 c1 s1) (apply_givens_rotation x2 y2 c2 s2).
Proof. rel_go. Qed.
Lemma rel_apply_givens_rotation_c : forall (O1 O2 : ops) (R : O1 -> O2 -> Prop) (x1 : vec O1) (x2 : vec O2) (y1 : vec O1) (y2 : vec O2) (c1 : car O1) (c2 : car O2) (s1 : car O1) (s2 : car O2),
  respects R -> vec_related R x1 x2 -> vec_related R y1 y2 -> R c1 c2 -> R s1 s2 -> 
  related_runs R eq (apply_givens_rotation_c x1 y1 c1 s1) (apply_givens_rotation_c x2 y2 c2 s2).
Proof. rel_go. Qed.
Lemma rel_matrix_vector_product : forall (O1 O2 : ops) (R : O1 -> O2 -> Prop) (A1 : mat O1) (A2 : mat O2) (x1 : vec O1) (x2 : vec O2) (y1 : vec O1) (y2 : vec O2),
  respects R -> mat_related R A1 A2 -> vec_related R x1 x2 -> vec_related R y1 y2 -> 
  related_runs R eq (matrix_vector_product A1 x1 y1) (matrix_vector_product A2 x2 y2).
Proof. rel_go. Qed.
Lemma rel_matrix_vector_product_upd : forall (O1 O2 : ops) (R : O1 -> O2 -> Prop) (A1 : mat O1) (A2 : mat O2) (x1 : vec O1) (x2 : vec O2) (y1 : vec O1) (y2 : vec O2) (z1 : vec O1) (z2 : vec O2),
  respects R -> mat_related R A1 A2 -> vec_related R x1 x2 -> vec_related R y1 y2 -> vec_related R z1 z2 -> 
  related_runs R eq (matrix_vector_product_upd A1 x1 y1 z1) (matrix_vector_product_upd A2 x2 y2 z2).
Proof. rel_go. Qed.
Lemma rel_symmetric_matrix_vector_product : forall (O1 O2 : ops) (R : O1 -> O2 -> Prop) (A1 : mat O1) (A2 : mat O2) (x1 : vec O1) (x2 : vec O2) (y1 : vec O1) (y2 : vec O2) (t : triangle),
  respects R -> mat_related R A1 A2 -> vec_related R x1 x2 -> vec_related R y1 y2 -> 
  related_runs R eq (symmetric_matrix_vector_product A1 t x1 y1) (symmetric_matrix_vector_product A2 t x2 y2).
Proof. rel_go. Qed.
Lemma rel_symmetric_matrix_vector_product_upd : forall (O1 O2 : ops) (R : O1 -> O2 -> Prop) (A1 : mat O1) (A2 : mat O2) (x1 : vec O1) (x2 : vec O2) (y1 : vec O1) (y2 : vec O2) (z1 : vec O1) (z2 : vec O2) (t : triangle),
  respects R -> mat_related R A1 A2 -> vec_related R x1 x2 -> vec_related R y1 y2 -> vec_related R z1 z2 -> 
  related_runs R eq (symmetric_matrix_vector_product_upd A1 t x1 y1 z1) (symmetric_matrix_vector_product_upd A2 t x2 y2 z2).
Proof. rel_go. Qed.
Lemma rel_hermitian_matrix_vector_product : forall (O1 O2 : ops) (R : O1 -> O2 -> Prop) (A1 : mat O1) (A2 : mat O2) (x1 : vec O1) (x2 : vec O2) (y1 : vec O1) (y2 : vec O2) (t : triangle),
  respects R -> mat_related R A1 A2 -> vec_related R x1 x2 -> vec_related R y1 y2 -> 
  related_runs R eq (hermitian_matrix_vector_product A1 t x1 y1) (hermitian_matrix_vector_product A2 t x2 y2).
Proof. rel_go. Qed.
Lemma rel_hermitian_matrix_vector_product_upd : forall (O1 O2 : ops) (R : O1 -> O2 -> Prop) (A1 : mat O1) (A2 : mat O2) (x1 : vec O1) (x2 : vec O2) (y1 : vec O1) (y2 : vec O2) (z1 : vec O1) (z2 : vec O2) (t : triangle),
  respects R -> mat_related R A1 A2 -> vec_related R x1 x2 -> vec_related R y1 y2 -> vec_related R z1 z2 -> 
  related_runs R eq (hermitian_matrix_vector_product_upd A1 t x1 y1 z1) (hermitian_matrix_vector_product_upd A2 t x2 y2 z2).
Proof. rel_go. Qed.
Lemma rel_triangular_matrix_vector_product : forall (O1 O2 : ops) (R : O1 -> O2 -> Prop) (A1 : mat O1) (A2 : mat O2) (x1 : vec O1) (x2 : vec O2) (y1 : vec O1) (y2 : vec O2) (t : triangle) (d : diagonal),
  respects R -> mat_related R A1 A2 -> vec_related R x1 x2 -> vec_related R y1 y2 -> 
  related_runs R eq (triangular_matrix_vector_product A1 t d x1 y1) (triangular_matrix_vector_product A2 t d x2 y2).
Proof. rel_go. Qed.
Lemma rel_triangular_matrix_vector_product_upd : forall (O1 O2 : ops) (R : O1 -> O2 -> Prop) (A1 : mat O1) (A2 : mat O2) (x1 : vec O1) (x2 : vec O2) (y1 : vec O1) (y2 : vec O2) (z1 : vec O1) (z2 : vec O2) (t : triangle) (d : diagonal),
  respects R -> mat_related R A1 A2 -> vec_related R x1 x2 -> vec_related R y1 y2 -> vec_related R z1 z2 -> 
  related_runs R eq (triangular_matrix_vector_product_upd A1 t d x1 y1 z1) (triangular_matrix_vector_product_upd A2 t d x2 y2 z2).
Proof. rel_go. Qed.
Lemma rel_triangular_matrix_vector_product_inplace : forall (O1 O2 : ops) (R : O1 -> O2 -> Prop) (A1 : mat O1) (A2 : mat O2) (y1 : vec O1) (y2 : vec O2) (t : triangle) (d : diagonal),
  respects R -> mat_related R A1 A2 -> vec_related R y1 y2 -> 
  related_runs R eq (triangular_matrix_vector_product_inplace A1 t d y1) (triangular_matrix_vector_product_inplace A2 t d y2).
Proof. rel_go. Qed.
Lemma rel_triangular_matrix_vector_solve_with : forall (O1 O2 : ops) (R : O1 -> O2 -> Prop) (divide1 : O1 -> O1 -> O1) (divide2 : O2 -> O2 -> O2) (A1 : mat O1) (A2 : mat O2) (b1 : vec O1) (b2 : vec O2) (x1 : vec O1) (x2 : vec O2) (ty : ity) (t : triangle) (d : diagonal),
  respects R -> respects_op R divide1 divide2 -> mat_related R A1 A2 -> vec_related R b1 b2 -> vec_related R x1 x2 -> 
  related_runs R eq (triangular_matrix_vector_solve_with ty divide1 A1 t d b1 x1) (triangular_matrix_vector_solve_with ty divide2 A2 t d b2 x2).
Proof. rel_go. Qed.
Lemma rel_triangular_matrix_vector_solve : forall (O1 O2 : ops) (R : O1 -> O2 -> Prop) (A1 : mat O1) (A2 : mat O2) (b1 : vec O1) (b2 : vec O2) (x1 : vec O1) (x2 : vec O2) (ty : ity) (t : triangle) (d : diagonal),
  respects R -> respects_op R (@div O1) (@div O2) -> mat_related R A1 A2 -> vec_related R b1 b2 -> vec_related R x1 x2 -> 
  related_runs R eq (triangular_matrix_vector_solve ty A1 t d b1 x1) (triangular_matrix_vector_solve ty A2 t d b2 x2).
Proof. rel_go. Qed.
Lemma rel_matrix_rank_1_update : forall (O1 O2 : ops) (R : O1 -> O2 -> Prop) (x1 : vec O1) (x2 : vec O2) (y1 : vec O1) (y2 : vec O2) (A1 : mat O1) (A2 : mat O2),
  respects R -> vec_related R x1 x2 -> vec_related R y1 y2 -> mat_related R A1 A2 -> 
  related_runs R eq (matrix_rank_1_update x1 y1 A1) (matrix_rank_1_update x2 y2 A2).
Proof. rel_go. Qed.
Lemma rel_matrix_rank_1_update_c : forall (O1 O2 : ops) (R : O1 -> O2 -> Prop) (x1 : vec O1) (x2 : vec O2) (y1 : vec O1) (y2 : vec O2) (A1 : mat O1) (A2 : mat O2) (fix_nc : bool) (noncomplex : bool),
  respects R -> vec_related R x1 x2 -> vec_related R y1 y2 -> mat_related R A1 A2 -> 
  related_runs R eq (matrix_rank_1_update_c fix_nc noncomplex x1 y1 A1) (matrix_rank_1_update_c fix_nc noncomplex x2 y2 A2).
Proof. rel_go. Qed.
Lemma rel_symmetric_matrix_rank_1_update_alpha : forall (O1 O2 : ops) (R : O1 -> O2 -> Prop) (alpha1 : car O1) (alpha2 : car O2) (x1 : vec O1) (x2 : vec O2) (A1 : mat O1) (A2 : mat O2) (t : triangle),
  respects R -> R alpha1 alpha2 -> vec_related R x1 x2 -> mat_related R A1 A2 -> 
  related_runs R eq (symmetric_matrix_rank_1_update_alpha alpha1 x1 A1 t) (symmetric_matrix_rank_1_update_alpha alpha2 x2 A2 t).
Proof. rel_go. Qed.
Lemma rel_symmetric_matrix_rank_1_update : forall (O1 O2 : ops) (R : O1 -> O2 -> Prop) (x1 : vec O1) (x2 : vec O2) (A1 : mat O1) (A2 : mat O2) (t : triangle),
  respects R -> vec_related R x1 x2 -> mat_related R A1 A2 -> 
  related_runs R eq (symmetric_matrix_rank_1_update x1 A1 t) (symmetric_matrix_rank_1_update x2 A2 t).
Proof. rel_go. Qed.
Lemma rel_hermitian_matrix_rank_1_update_alpha : forall (O1 O2 : ops) (R : O1 -> O2 -> Prop) (alpha1 : car O1) (alpha2 : car O2) (x1 : vec O1) (x2 : vec O2) (A1 : mat O1) (A2 : mat O2) (t : triangle),
  respects R -> R alpha1 alpha2 -> vec_related R x1 x2 -> mat_related R A1 A2 -> 
  related_runs R eq (hermitian_matrix_rank_1_update_alpha alpha1 x1 A1 t) (hermitian_matrix_rank_1_update_alpha alpha2 x2 A2 t).
Proof. rel_go. Qed.
Lemma rel_hermitian_matrix_rank_1_update : forall (O1 O2 : ops) (R : O1 -> O2 -> Prop) (x1 : vec O1) (x2 : vec O2) (A1 : mat O1) (A2 : mat O2) (t : triangle),
  respects R -> vec_related R x1 x2 -> mat_related R A1 A2 -> 
  related_runs R eq (hermitian_matrix_rank_1_update x1 A1 t) (hermitian_matrix_rank_1_update x2 A2 t).
Proof. rel_go. Qed.
Lemma rel_symmetric_matrix_rank_2_update : forall (O1 O2 : ops) (R : O1 -> O2 -> Prop) (x1 : vec O1) (x2 : vec O2) (y1 : vec O1) (y2 : vec O2) (A1 : mat O1) (A2 : mat O2) (t : triangle),
  respects R -> vec_related R x1 x2 -> vec_related R y1 y2 -> mat_related R A1 A2 -> 
  related_runs R eq (symmetric_matrix_rank_2_update x1 y1 A1 t) (symmetric_matrix_rank_2_update x2 y2 A2 t).
Proof. rel_go. Qed.
Lemma rel_hermitian_matrix_rank_2_update : forall (O1 O2 : ops) (R : O1 -> O2 -> Prop) (x1 : vec O1) (x2 : vec O2) (y1 : vec O1) (y2 : vec O2) (A1 : mat O1) (A2 : mat O2) (t : triangle),
  respects R -> vec_related R x1 x2 -> vec_related R y1 y2 -> mat_related R A1 A2 -> 
  related_runs R eq (hermitian_matrix_rank_2_update x1 y1 A1 t) (hermitian_matrix_rank_2_update x2 y2 A2 t).
Proof. rel_go. Qed.
Lemma rel_matrix_product : forall (O1 O2 : ops) (R : O1 -> O2 -> Prop) (A1 : mat O1) (A2 : mat O2) (B1 : mat O1) (B2 : mat O2) (C1 : mat O1) (C2 : mat O2),
  respects R -> mat_related R A1 A2 -> mat_related R B1 B2 -> mat_related R C1 C2 -> 
  related_runs R eq (matrix_product A1 B1 C1) (matrix_product A2 B2 C2).
Proof. rel_go. Qed.
Lemma rel_matrix_product_upd : forall (O1 O2 : ops) (R : O1 -> O2 -> Prop) (A1 : mat O1) (A2 : mat O2) (B1 : mat O1) (B2 : mat O2) (E1 : mat O1) (E2 : mat O2) (C1 : mat O1) (C2 : mat O2),
  respects R -> mat_related R A1 A2 -> mat_related R B1 B2 -> mat_related R E1 E2 -> mat_related R C1 C2 -> 
  related_runs R eq (matrix_product_upd A1 B1 E1 C1) (matrix_product_upd A2 B2 E2 C2).
Proof. rel_go. Qed.
Lemma rel_triangular_matrix_product_left : forall (O1 O2 : ops) (R : O1 -> O2 -> Prop) (A1 : mat O1) (A2 : mat O2) (B1 : mat O1) (B2 : mat O2) (C1 : mat O1) (C2 : mat O2) (ty : ity) (t : triangle) (d : diagonal),
  respects R -> mat_related R A1 A2 -> mat_related R B1 B2 -> mat_related R C1 C2 -> 
  related_runs R eq (triangular_matrix_product_left ty A1 t d B1 C1) (triangular_matrix_product_left ty A2 t d B2 C2).
Proof. rel_go. Qed.
Lemma rel_triangular_matrix_product_right : forall (O1 O2 : ops) (R : O1 -> O2 -> Prop) (B1 : mat O1) (B2 : mat O2) (A1 : mat O1) (A2 : mat O2) (C1 : mat O1) (C2 : mat O2) (ty : ity) (t : triangle) (d : diagonal),
  respects R -> mat_related R B1 B2 -> mat_related R A1 A2 -> mat_related R C1 C2 -> 
  related_runs R eq (triangular_matrix_product_right ty B1 A1 t d C1) (triangular_matrix_product_right ty B2 A2 t d C2).
Proof. rel_go. Qed.
Lemma rel_triangular_matrix_left_product : forall (O1 O2 : ops) (R : O1 -> O2 -> Prop) (A1 : mat O1) (A2 : mat O2) (C1 : mat O1) (C2 : mat O2) (t : triangle) (d : diagonal),
  respects R -> mat_related R A1 A2 -> mat_related R C1 C2 -> 
  related_runs R eq (triangular_matrix_left_product A1 t d C1) (triangular_matrix_left_product A2 t d C2).
Proof. rel_go. Qed.
Lemma rel_triangular_matrix_right_product : forall (O1 O2 : ops) (R : O1 -> O2 -> Prop) (A1 : mat O1) (A2 : mat O2) (C1 : mat O1) (C2 : mat O2) (t : triangle) (d : diagonal),
  respects R -> mat_related R A1 A2 -> mat_related R C1 C2 -> 
  related_runs R eq (triangular_matrix_right_product A1 t d C1) (triangular_matrix_right_product A2 t d C2).
Proof. rel_go. Qed.
Lemma rel_symmetric_matrix_product_left : forall (O1 O2 : ops) (R : O1 -> O2 -> Prop) (A1 : mat O1) (A2 : mat O2) (B1 : mat O1) (B2 : mat O2) (C1 : mat O1) (C2 : mat O2) (t : triangle),
  respects R -> mat_related R A1 A2 -> mat_related R B1 B2 -> mat_related R C1 C2 -> 
  related_runs R eq (symmetric_matrix_product_left A1 t B1 C1) (symmetric_matrix_product_left A2 t B2 C2).
Proof. rel_go. Qed.
Lemma rel_symmetric_matrix_product_right : forall (O1 O2 : ops) (R : O1 -> O2 -> Prop) (B1 : mat O1) (B2 : mat O2) (A1 : mat O1) (A2 : mat O2) (C1 : mat O1) (C2 : mat O2) (t : triangle),
  respects R -> mat_related R B1 B2 -> mat_related R A1 A2 -> mat_related R C1 C2 -> 
  related_runs R eq (symmetric_matrix_product_right B1 A1 t C1) (symmetric_matrix_product_right B2 A2 t C2).
Proof. rel_go. Qed.
Lemma rel_hermitian_matrix_product_left : forall (O1 O2 : ops) (R : O1 -> O2 -> Prop) (A1 : mat O1) (A2 : mat O2) (B1 : mat O1) (B2 : mat O2) (C1 : mat O1) (C2 : mat O2) (t : triangle),
  respects R -> mat_related R A1 A2 -> mat_related R B1 B2 -> mat_related R C1 C2 -> 
  related_runs R eq (hermitian_matrix_product_left A1 t B1 C1) (hermitian_matrix_product_left A2 t B2 C2).
Proof. rel_go. Qed.
Lemma rel_hermitian_matrix_product_right : forall (O1 O2 : ops) (R : O1 -> O2 -> Prop) (B1 : mat O1) (B2 : mat O2) (A1 : mat O1) (A2 : mat O2) (C1 : mat O1) (C2 : mat O2) (t : triangle),
  respects R -> mat_related R B1 B2 -> mat_related R A1 A2 -> mat_related R C1 C2 -> 
  related_runs R eq (hermitian_matrix_product_right B1 A1 t C1) (hermitian_matrix_product_right B2 A2 t C2).
Proof. rel_go. Qed.
Lemma rel_symmetric_matrix_rank_k_update_alpha : forall (O1 O2 : ops) (R : O1 -> O2 -> Prop) (alpha1 : car O1) (alpha2 : car O2) (A1 : mat O1) (A2 : mat O2) (C1 : mat O1) (C2 : mat O2) (t : triangle),
  respects R -> R alpha1 alpha2 -> mat_related R A1 A2 -> mat_related R C1 C2 -> 
  related_runs R eq (symmetric_matrix_rank_k_update_alpha alpha1 A1 C1 t) (symmetric_matrix_rank_k_update_alpha alpha2 A2 C2 t).
Proof. rel_go. Qed.
Lemma rel_symmetric_matrix_rank_k_update : forall (O1 O2 : ops) (R : O1 -> O2 -> Prop) (A1 : mat O1) (A2 : mat O2) (C1 : mat O1) (C2 : mat O2) (t : triangle),
  respects R -> mat_related R A1 A2 -> mat_related R C1 C2 -> 
  related_runs R eq (symmetric_matrix_rank_k_update A1 C1 t) (symmetric_matrix_rank_k_update A2 C2 t).
Proof. rel_go. Qed.
Lemma rel_hermitian_matrix_rank_k_update_alpha : forall (O1 O2 : ops) (R : O1 -> O2 -> Prop) (alpha1 : car O1) (alpha2 : car O2) (A1 : mat O1) (A2 : mat O2) (C1 : mat O1) (C2 : mat O2) (t : triangle),
  respects R -> R alpha1 alpha2 -> mat_related R A1 A2 -> mat_related R C1 C2 -> 
  related_runs R eq (hermitian_matrix_rank_k_update_alpha alpha1 A1 C1 t) (hermitian_matrix_rank_k_update_alpha alpha2 A2 C2 t).
Proof. rel_go. Qed.
Lemma rel_hermitian_matrix_rank_k_update : forall (O1 O2 : ops) (R : O1 -> O2 -> Prop) (A1 : mat O1) (A2 : mat O2) (C1 : mat O1) (C2 : mat O2) (t : triangle),
  respects R -> mat_related R A1 A2 -> mat_related R C1 C2 -> 
  related_runs R eq (hermitian_matrix_rank_k_update A1 C1 t) (hermitian_matrix_rank_k_update A2 C2 t).
Proof. rel_go. Qed.
Lemma rel_symmetric_matrix_rank_2k_update : forall (O1 O2 : ops) (R : O1 -> O2 -> Prop) (A1 : mat O1) (A2 : mat O2) (B1 : mat O1) (B2 : mat O2) (C1 : mat O1) (C2 : mat O2) (t : triangle),
  respects R -> mat_related R A1 A2 -> mat_related R B1 B2 -> mat_related R C1 C2 -> 
  related_runs R eq (symmetric_matrix_rank_2k_update A1 B1 C1 t) (symmetric_matrix_rank_2k_update A2 B2 C2 t).
Proof. rel_go. Qed.
Lemma rel_hermitian_matrix_rank_2k_update : forall (O1 O2 : ops) (R : O1 -> O2 -> Prop) (A1 : mat O1) (A2 : mat O2) (B1 : mat O1) (B2 : mat O2) (C1 : mat O1) (C2 : mat O2) (t : triangle),
  respects R -> mat_related R A1 A2 -> mat_related R B1 B2 -> mat_related R C1 C2 -> 
  related_runs R eq (hermitian_matrix_rank_2k_update A1 B1 C1 t) (hermitian_matrix_rank_2k_update A2 B2 C2 t).
Proof. rel_go. Qed.
Lemma rel_triangular_matrix_matrix_left_solve : forall (O1 O2 : ops) (R : O1 -> O2 -> Prop) (A1 : mat O1) (A2 : mat O2) (B1 : mat O1) (B2 : mat O2) (X1 : mat O1) (X2 : mat O2) (ty : ity) (t : triangle) (d : diagonal),
  respects R -> respects_op R (@div O1) (@div O2) -> mat_related R A1 A2 -> mat_related R B1 B2 -> mat_related R X1 X2 -> 
  related_runs R eq (triangular_matrix_matrix_left_solve ty A1 t d B1 X1) (triangular_matrix_matrix_left_solve ty A2 t d B2 X2).
Proof. rel_go. Qed.
Lemma rel_triangular_matrix_matrix_right_solve : forall (O1 O2 : ops) (R : O1 -> O2 -> Prop) (A1 : mat O1) (A2 : mat O2) (B1 : mat O1) (B2 : mat O2) (X1 : mat O1) (X2 : mat O2) (ty : ity) (t : triangle) (d : diagonal),
  respects R -> respects_op R (@div O1) (@div O2) -> mat_related R A1 A2 -> mat_related R B1 B2 -> mat_related R X1 X2 -> 
  related_runs R eq (triangular_matrix_matrix_right_solve ty A1 t d B1 X1) (triangular_matrix_matrix_right_solve ty A2 t d B2 X2).
Proof. rel_go. Qed.
Lemma rel_triangular_matrix_matrix_solve : forall (O1 O2 : ops) (R : O1 -> O2 -> Prop) (A1 : mat O1) (A2 : mat O2) (B1 : mat O1) (B2 : mat O2) (X1 : mat O1) (X2 : mat O2) (ty : ity) (t : triangle) (d : diagonal) (s : side),
  respects R -> respects_op R (@div O1) (@div O2) -> mat_related R A1 A2 -> mat_related R B1 B2 -> mat_related R X1 X2 -> 
  related_runs R eq (triangular_matrix_matrix_solve ty A1 t d s B1 X1) (triangular_matrix_matrix_solve ty A2 t d s B2 X2).
Proof. rel_go. Qed.
Lemma rel_vector_abs_sum : forall (O1 O2 : ops) (R : O1 -> O2 -> Prop) (F1 F2 : rops) (S : F1 -> F2 -> Prop) (M1 : mags O1 F1) (M2 : mags O2 F2) (v1 : vec O1) (v2 : vec O2) (init1 : rcar F1) (init2 : rcar F2),
  respects R -> respects_mag S -> mags_related R S M1 M2 -> vec_related R v1 v2 -> S init1 init2 -> 
  related_runs R S (vector_abs_sum M1 v1 init1) (vector_abs_sum M2 v2 init2).
Proof. rel_go. Qed.
Lemma rel_vector_abs_sum_noinit : forall (O1 O2 : ops) (R : O1 -> O2 -> Prop) (F1 F2 : rops) (S : F1 -> F2 -> Prop) (M1 : mags O1 F1) (M2 : mags O2 F2) (v1 : vec O1) (v2 : vec O2),
  respects R -> respects_mag S -> mags_related R S M1 M2 -> vec_related R v1 v2 -> 
  related_runs R S (vector_abs_sum_noinit M1 v1) (vector_abs_sum_noinit M2 v2).
Proof. rel_go. Qed.
Lemma rel_vector_sum_of_squares : forall (O1 O2 : ops) (R : O1 -> O2 -> Prop) (F1 F2 : rops) (S : F1 -> F2 -> Prop) (M1 : mags O1 F1) (M2 : mags O2 F2) (x1 : vec O1) (x2 : vec O2) (init1 : @sum_of_squares_result F1) (init2 : @sum_of_squares_result F2),
  respects R -> respects_mag S -> mags_related R S M1 M2 -> vec_related R x1 x2 -> ssq_related S init1 init2 -> 
  related_runs R (ssq_related S) (vector_sum_of_squares M1 x1 init1) (vector_sum_of_squares M2 x2 init2).
Proof. rel_go. Qed.
Lemma rel_vector_two_norm : forall (O1 O2 : ops) (R : O1 -> O2 -> Prop) (F1 F2 : rops) (S : F1 -> F2 -> Prop) (M1 : mags O1 F1) (M2 : mags O2 F2) (x1 : vec O1) (x2 : vec O2) (init1 : rcar F1) (init2 : rcar F2),
  respects R -> respects_mag S -> mags_related R S M1 M2 -> vec_related R x1 x2 -> S init1 init2 -> 
  related_runs R S (vector_two_norm M1 x1 init1) (vector_two_norm M2 x2 init2).
Proof. rel_go. Qed.
Lemma rel_vector_two_norm_noinit : forall (O1 O2 : ops) (R : O1 -> O2 -> Prop) (F1 F2 : rops) (S : F1 -> F2 -> Prop) (M1 : mags O1 F1) (M2 : mags O2 F2) (x1 : vec O1) (x2 : vec O2),
  respects R -> respects_mag S -> mags_related R S M1 M2 -> vec_related R x1 x2 -> 
  related_runs R S (vector_two_norm_noinit M1 x1) (vector_two_norm_noinit M2 x2).
Proof. rel_go. Qed.
Lemma rel_matrix_frob_norm : forall (O1 O2 : ops) (R : O1 -> O2 -> Prop) (F1 F2 : rops) (S : F1 -> F2 -> Prop) (M1 : mags O1 F1) (M2 : mags O2 F2) (A1 : mat O1) (A2 : mat O2) (init1 : rcar F1) (init2 : rcar F2),
  respects R -> respects_mag S -> mags_related R S M1 M2 -> mat_related R A1 A2 -> S init1 init2 -> 
  related_runs R S (matrix_frob_norm M1 A1 init1) (matrix_frob_norm M2 A2 init2).
Proof. rel_go. Qed.
Lemma rel_matrix_frob_norm_noinit : forall (O1 O2 : ops) (R : O1 -> O2 -> Prop) (F1 F2 : rops) (S : F1 -> F2 -> Prop) (M1 : mags O1 F1) (M2 : mags O2 F2) (A1 : mat O1) (A2 : mat O2),
  respects R -> respects_mag S -> mags_related R S M1 M2 -> mat_related R A1 A2 -> 
  related_runs R S (matrix_frob_norm_noinit M1 A1) (matrix_frob_norm_noinit M2 A2).
Proof. rel_go. Qed.
Lemma rel_matrix_inf_norm : forall (O1 O2 : ops) (R : O1 -> O2 -> Prop) (F1 F2 : rops) (S : F1 -> F2 -> Prop) (M1 : mags O1 F1) (M2 : mags O2 F2) (A1 : mat O1) (A2 : mat O2) (init1 : rcar F1) (init2 : rcar F2),
  respects R -> respects_mag S -> mags_related R S M1 M2 -> mat_related R A1 A2 -> S init1 init2 -> 
  related_runs R S (matrix_inf_norm M1 A1 init1) (matrix_inf_norm M2 A2 init2).
Proof. rel_go. Qed.
Lemma rel_matrix_inf_norm_noinit : forall (O1 O2 : ops) (R : O1 -> O2 -> Prop) (F1 F2 : rops) (S : F1 -> F2 -> Prop) (M1 : mags O1 F1) (M2 : mags O2 F2) (A1 : mat O1) (A2 : mat O2),
  respects R -> respects_mag S -> mags_related R S M1 M2 -> mat_related R A1 A2 -> 
  related_runs R S (matrix_inf_norm_noinit M1 A1) (matrix_inf_norm_noinit M2 A2).
Proof. rel_go. Qed.
Lemma rel_matrix_one_norm : forall (O1 O2 : ops) (R : O1 -> O2 -> Prop) (F1 F2 : rops) (S : F1 -> F2 -> Prop) (M1 : mags O1 F1) (M2 : mags O2 F2) (A1 : mat O1) (A2 : mat O2) (init1 : rcar F1) (init2 : rcar F2),
  respects R -> respects_mag S -> mags_related R S M1 M2 -> mat_related R A1 A2 -> S init1 init2 -> 
  related_runs R S (matrix_one_norm M1 A1 init1) (matrix_one_norm M2 A2 init2).
Proof. rel_go. Qed.
Lemma rel_matrix_one_norm_noinit : forall (O1 O2 : ops) (R : O1 -> O2 -> Prop) (F1 F2 : rops) (S : F1 -> F2 -> Prop) (M1 : mags O1 F1) (M2 : mags O2 F2) (A1 : mat O1) (A2 : mat O2),
  respects R -> respects_mag S -> mags_related R S M1 M2 -> mat_related R A1 A2 -> 
  related_runs R S (matrix_one_norm_noinit M1 A1) (matrix_one_norm_noinit M2 A2).
Proof. rel_go. Qed.
Lemma rel_kk_matrix_rank_1_update : forall (O1 O2 : ops) (R : O1 -> O2 -> Prop) (x1 : vec O1) (x2 : vec O2) (y1 : vec O1) (y2 : vec O2) (A1 : mat O1) (A2 : mat O2),
  respects R -> vec_related R x1 x2 -> vec_related R y1 y2 -> mat_related R A1 A2 -> 
  related_par R (kk_matrix_rank_1_update x1 y1 A1) (kk_matrix_rank_1_update x2 y2 A2).
Proof. rel_go. Qed.
Lemma rel_kk_matrix_rank_1_update_conj : forall (O1 O2 : ops) (R : O1 -> O2 -> Prop) (x1 : vec O1) (x2 : vec O2) (y1 : vec O1) (y2 : vec O2) (A1 : mat O1) (A2 : mat O2),
  respects R -> vec_related R x1 x2 -> vec_related R y1 y2 -> mat_related R A1 A2 -> 
  related_par R (kk_matrix_rank_1_update_conj x1 y1 A1) (kk_matrix_rank_1_update_conj x2 y2 A2).
Proof. rel_go. Qed.
Lemma rel_kk_symmetric_matrix_rank_1_update : forall (O1 O2 : ops) (R : O1 -> O2 -> Prop) (x1 : vec O1) (x2 : vec O2) (A1 : mat O1) (A2 : mat O2) (t : triangle),
  respects R -> vec_related R x1 x2 -> mat_related R A1 A2 -> 
  related_par R (kk_symmetric_matrix_rank_1_update x1 A1 t) (kk_symmetric_matrix_rank_1_update x2 A2 t).
Proof. rel_go. Qed.
Lemma rel_kk_hermitian_matrix_rank_1_update : forall (O1 O2 : ops) (R : O1 -> O2 -> Prop) (x1 : vec O1) (x2 : vec O2) (A1 : mat O1) (A2 : mat O2) (t : triangle),
  respects R -> vec_related R x1 x2 -> mat_related R A1 A2 -> 
  related_par R (kk_hermitian_matrix_rank_1_update x1 A1 t) (kk_hermitian_matrix_rank_1_update x2 A2 t).
Proof. rel_go. Qed.
Lemma rel_kk_symmetric_matrix_rank_2_update : forall (O1 O2 : ops) (R : O1 -> O2 -> Prop) (x1 : vec O1) (x2 : vec O2) (y1 : vec O1) (y2 : vec O2) (A1 : mat O1) (A2 : mat O2) (t : triangle),
  respects R -> vec_related R x1 x2 -> vec_related R y1 y2 -> mat_related R A1 A2 -> 
  related_par R (kk_symmetric_matrix_rank_2_update x1 y1 A1 t) (kk_symmetric_matrix_rank_2_update x2 y2 A2 t).
Proof. rel_go. Qed.
Lemma rel_kk_hermitian_matrix_rank_2_update : forall (O1 O2 : ops) (R : O1 -> O2 -> Prop) (x1 : vec O1) (x2 : vec O2) (y1 : vec O1) (y2 : vec O2) (A1 : mat O1) (A2 : mat O2) (t : triangle),
  respects R -> vec_related R x1 x2 -> vec_related R y1 y2 -> mat_related R A1 A2 -> 
  related_par R (kk_hermitian_matrix_rank_2_update x1 y1 A1 t) (kk_hermitian_matrix_rank_2_update x2 y2 A2 t).
Proof. rel_go. Qed.
Lemma rel_kk_symmetric_matrix_rank_k_update : forall (O1 O2 : ops) (R : O1 -> O2 -> Prop) (alpha1 : car O1) (alpha2 : car O2) (A1 : mat O1) (A2 : mat O2) (C1 : mat O1) (C2 : mat O2) (t : triangle),
  respects R -> R alpha1 alpha2 -> mat_related R A1 A2 -> mat_related R C1 C2 -> 
  related_par R (kk_symmetric_matrix_rank_k_update alpha1 A1 C1 t) (kk_symmetric_matrix_rank_k_update alpha2 A2 C2 t).
Proof. rel_go. Qed.
Lemma rel_kk_hermitian_matrix_rank_k_update : forall (O1 O2 : ops) (R : O1 -> O2 -> Prop) (alpha1 : car O1) (alpha2 : car O2) (A1 : mat O1) (A2 : mat O2) (C1 : mat O1) (C2 : mat O2) (t : triangle),
  respects R -> R alpha1 alpha2 -> mat_related R A1 A2 -> mat_related R C1 C2 -> 
  related_par R (kk_hermitian_matrix_rank_k_update alpha1 A1 C1 t) (kk_hermitian_matrix_rank_k_update alpha2 A2 C2 t).
Proof. rel_go. Qed.
Lemma rel_kk_symmetric_matrix_rank_2k_update : forall (O1 O2 : ops) (R : O1 -> O2 -> Prop) (A1 : mat O1) (A2 : mat O2) (B1 : mat O1) (B2 : mat O2) (C1 : mat O1) (C2 : mat O2) (t : triangle),
  respects R -> mat_related R A1 A2 -> mat_related R B1 B2 -> mat_related R C1 C2 -> 
  related_par R (kk_symmetric_matrix_rank_2k_update A1 B1 C1 t) (kk_symmetric_matrix_rank_2k_update A2 B2 C2 t).
Proof. rel_go. Qed.
Lemma rel_kk_hermitian_matrix_rank_2k_update : forall (O1 O2 : ops) (R : O1 -> O2 -> Prop) (A1 : mat O1) (A2 : mat O2) (B1 : mat O1) (B2 : mat O2) (C1 : mat O1) (C2 : mat O2) (t : triangle),
  respects R -> mat_related R A1 A2 -> mat_related R B1 B2 -> mat_related R C1 C2 -> 
  related_par R (kk_hermitian_matrix_rank_2k_update A1 B1 C1 t) (kk_hermitian_matrix_rank_2k_update A2 B2 C2 t).
Proof. rel_go. Qed.
Lemma rel_kk_matrix_vector_product_upd : forall (O1 O2 : ops) (R : O1 -> O2 -> Prop) (A1 : mat O1) (A2 : mat O2) (x1 : vec O1) (x2 : vec O2) (y1 : vec O1) (y2 : vec O2) (z1 : vec O1) (z2 : vec O2),
  respects R -> mat_related R A1 A2 -> vec_related R x1 x2 -> vec_related R y1 y2 -> vec_related R z1 z2 -> 
  related_par R (kk_matrix_vector_product_upd A1 x1 y1 z1) (kk_matrix_vector_product_upd A2 x2 y2 z2).
Proof. rel_go. Qed.
Lemma rel_kk_triangular_matrix_vector_product : forall (O1 O2 : ops) (R : O1 -> O2 -> Prop) (A1 : mat O1) (A2 : mat O2) (x1 : vec O1) (x2 : vec O2) (y1 : vec O1) (y2 : vec O2) (t : triangle) (d : diagonal),
  respects R -> mat_related R A1 A2 -> vec_related R x1 x2 -> vec_related R y1 y2 -> 
  related_par R (kk_triangular_matrix_vector_product A1 t d x1 y1) (kk_triangular_matrix_vector_product A2 t d x2 y2).
Proof. rel_go. Qed.
Lemma rel_kk_triangular_matrix_vector_product_upd : forall (O1 O2 : ops) (R : O1 -> O2 -> Prop) (A1 : mat O1) (A2 : mat O2) (x1 : vec O1) (x2 : vec O2) (y1 : vec O1) (y2 : vec O2) (z1 : vec O1) (z2 : vec O2) (t : triangle) (d : diagonal),
  respects R -> mat_related R A1 A2 -> vec_related R x1 x2 -> vec_related R y1 y2 -> vec_related R z1 z2 -> 
  related_par R (kk_triangular_matrix_vector_product_upd A1 t d x1 y1 z1) (kk_triangular_matrix_vector_product_upd A2 t d x2 y2 z2).
Proof. rel_go. Qed.
Lemma rel_kk_symmetric_matrix_right_product_upd : forall (O1 O2 : ops) (R : O1 -> O2 -> Prop) (A1 : mat O1) (A2 : mat O2) (B1 : mat O1) (B2 : mat O2) (E1 : mat O1) (E2 : mat O2) (C1 : mat O1) (C2 : mat O2) (t : triangle),
  respects R -> mat_related R A1 A2 -> mat_related R B1 B2 -> mat_related R E1 E2 -> mat_related R C1 C2 -> 
  related_par R (kk_symmetric_matrix_right_product_upd A1 t B1 E1 C1) (kk_symmetric_matrix_right_product_upd A2 t B2 E2 C2).
Proof. rel_go. Qed.
Lemma rel_kk_hermitian_matrix_right_product_upd : forall (O1 O2 : ops) (R : O1 -> O2 -> Prop) (A1 : mat O1) (A2 : mat O2) (B1 : mat O1) (B2 : mat O2) (E1 : mat O1) (E2 : mat O2) (C1 : mat O1) (C2 : mat O2) (t : triangle),
  respects R -> mat_related R A1 A2 -> mat_related R B1 B2 -> mat_related R E1 E2 -> mat_related R C1 C2 -> 
  related_par R (kk_hermitian_matrix_right_product_upd A1 t B1 E1 C1) (kk_hermitian_matrix_right_product_upd A2 t B2 E2 C2).
Proof. rel_go. Qed.
Lemma rel_kk_triangular_matrix_left_product_unit : forall (O1 O2 : ops) (R : O1 -> O2 -> Prop) (A1 : mat O1) (A2 : mat O2) (B1 : mat O1) (B2 : mat O2) (C1 : mat O1) (C2 : mat O2) (t : triangle),
  respects R -> mat_related R A1 A2 -> mat_related R B1 B2 -> mat_related R C1 C2 -> 
  related_par R (kk_triangular_matrix_left_product_unit A1 t B1 C1) (kk_triangular_matrix_left_product_unit A2 t B2 C2).
Proof. rel_go. Qed.
Lemma rel_kk_triangular_matrix_right_product_unit : forall (O1 O2 : ops) (R : O1 -> O2 -> Prop) (A1 : mat O1) (A2 : mat O2) (B1 : mat O1) (B2 : mat O2) (C1 : mat O1) (C2 : mat O2) (t : triangle),
  respects R -> mat_related R A1 A2 -> mat_related R B1 B2 -> mat_related R C1 C2 -> 
  related_par R (kk_triangular_matrix_right_product_unit A1 t B1 C1) (kk_triangular_matrix_right_product_unit A2 t B2 C2).
Proof. rel_go. Qed.
Lemma rel_kk_triangular_matrix_left_product_inplace_unit : forall (O1 O2 : ops) (R : O1 -> O2 -> Prop) (A1 : mat O1) (A2 : mat O2) (C1 : mat O1) (C2 : mat O2) (t : triangle),
  respects R -> mat_related R A1 A2 -> mat_related R C1 C2 -> 
  related_par R (kk_triangular_matrix_left_product_inplace_unit A1 t C1) (kk_triangular_matrix_left_product_inplace_unit A2 t C2).
Proof. rel_go. Qed.
Lemma rel_kk_triangular_matrix_right_product_inplace_unit : forall (O1 O2 : ops) (R : O1 -> O2 -> Prop) (A1 : mat O1) (A2 : mat O2) (C1 : mat O1) (C2 : mat O2) (t : triangle),
  respects R -> mat_related R A1 A2 -> mat_related R C1 C2 -> 
  related_par R (kk_triangular_matrix_right_product_inplace_unit A1 t C1) (kk_triangular_matrix_right_product_inplace_unit A2 t C2).
Proof. rel_go. Qed.
Lemma rel_kk_copy_2 : forall (O1 O2 : ops) (R : O1 -> O2 -> Prop) (x1 : mat O1) (x2 : mat O2) (y1 : mat O1) (y2 : mat O2),
  respects R -> mat_related R x1 x2 -> mat_related R y1 y2 -> 
  related_par R (kk_copy_2 x1 y1) (kk_copy_2 x2 y2).
Proof. rel_go. Qed.
Lemma rel_kk_swap_1 : forall (O1 O2 : ops) (R : O1 -> O2 -> Prop) (x1 : vec O1) (x2 : vec O2) (y1 : vec O1) (y2 : vec O2),
  respects R -> vec_related R x1 x2 -> vec_related R y1 y2 -> 
  related_par R (kk_swap_1 x1 y1) (kk_swap_1 x2 y2).
Proof. rel_go. Qed.
Lemma rel_kk_swap_2 : forall (O1 O2 : ops) (R : O1 -> O2 -> Prop) (x1 : mat O1) (x2 : mat O2) (y1 : mat O1) (y2 : mat O2),
  respects R -> mat_related R x1 x2 -> mat_related R y1 y2 -> 
  related_par R (kk_swap_2 x1 y1) (kk_swap_2 x2 y2).
Proof. rel_go. Qed.
Lemma rel_kk_symmetric_matrix_vector_product : forall (O1 O2 : ops) (R : O1 -> O2 -> Prop) (A1 : mat O1) (A2 : mat O2) (x1 : vec O1) (x2 : vec O2) (y1 : vec O1) (y2 : vec O2) (t : triangle),
  respects R -> mat_related R A1 A2 -> vec_related R x1 x2 -> vec_related R y1 y2 -> 
  related_par R (kk_symmetric_matrix_vector_product A1 t x1 y1) (kk_symmetric_matrix_vector_product A2 t x2 y2).
Proof. rel_go. Qed.
Lemma rel_kk_symmetric_matrix_vector_product_upd : forall (O1 O2 : ops) (R : O1 -> O2 -> Prop) (A1 : mat O1) (A2 : mat O2) (x1 : vec O1) (x2 : vec O2) (y1 : vec O1) (y2 : vec O2) (z1 : vec O1) (z2 : vec O2) (t : triangle),
  respects R -> mat_related R A1 A2 -> vec_related R x1 x2 -> vec_related R y1 y2 -> vec_related R z1 z2 -> 
  related_par R (kk_symmetric_matrix_vector_product_upd A1 t x1 y1 z1) (kk_symmetric_matrix_vector_product_upd A2 t x2 y2 z2).
Proof. rel_go. Qed.
Lemma rel_kk_hermitian_matrix_vector_product : forall (O1 O2 : ops) (R : O1 -> O2 -> Prop) (A1 : mat O1) (A2 : mat O2) (x1 : vec O1) (x2 : vec O2) (y1 : vec O1) (y2 : vec O2) (t : triangle),
  respects R -> mat_related R A1 A2 -> vec_related R x1 x2 -> vec_related R y1 y2 -> 
  related_par R (kk_hermitian_matrix_vector_product A1 t x1 y1) (kk_hermitian_matrix_vector_product A2 t x2 y2).
Proof. rel_go. Qed.
Lemma rel_kk_hermitian_matrix_vector_product_upd : forall (O1 O2 : ops) (R : O1 -> O2 -> Prop) (A1 : mat O1) (A2 : mat O2) (x1 : vec O1) (x2 : vec O2) (y1 : vec O1) (y2 : vec O2) (z1 : vec O1) (z2 : vec O2) (t : triangle),
  respects R -> mat_related R A1 A2 -> vec_related R x1 x2 -> vec_related R y1 y2 -> vec_related R z1 z2 -> 
  related_par R (kk_hermitian_matrix_vector_product_upd A1 t x1 y1 z1) (kk_hermitian_matrix_vector_product_upd A2 t x2 y2 z2).
Proof. rel_go. Qed.
Lemma rel_kk_symmetric_matrix_left_product : forall (O1 O2 : ops) (R : O1 -> O2 -> Prop) (A1 : mat O1) (A2 : mat O2) (B1 : mat O1) (B2 : mat O2) (C1 : mat O1) (C2 : mat O2) (t : triangle),
  respects R -> mat_related R A1 A2 -> mat_related R B1 B2 -> mat_related R C1 C2 -> 
  related_par R (kk_symmetric_matrix_left_product A1 t B1 C1) (kk_symmetric_matrix_left_product A2 t B2 C2).
Proof. rel_go. Qed.
Lemma rel_kk_symmetric_matrix_left_product_upd : forall (O1 O2 : ops) (R : O1 -> O2 -> Prop) (A1 : mat O1) (A2 : mat O2) (B1 : mat O1) (B2 : mat O2) (E1 : mat O1) (E2 : mat O2) (C1 : mat O1) (C2 : mat O2) (t : triangle),
  respects R -> mat_related R A1 A2 -> mat_related R B1 B2 -> mat_related R E1 E2 -> mat_related R C1 C2 -> 
  related_par R (kk_symmetric_matrix_left_product_upd A1 t B1 E1 C1) (kk_symmetric_matrix_left_product_upd A2 t B2 E2 C2).
Proof. rel_go. Qed.
Lemma rel_kk_symmetric_matrix_right_product : forall (O1 O2 : ops) (R : O1 -> O2 -> Prop) (A1 : mat O1) (A2 : mat O2) (B1 : mat O1) (B2 : mat O2) (C1 : mat O1) (C2 : mat O2) (t : triangle),
  respects R -> mat_related R A1 A2 -> mat_related R B1 B2 -> mat_related R C1 C2 -> 
  related_par R (kk_symmetric_matrix_right_product A1 t B1 C1) (kk_symmetric_matrix_right_product A2 t B2 C2).
Proof. rel_go. Qed.
Lemma rel_kk_hermitian_matrix_left_product : forall (O1 O2 : ops) (R : O1 -> O2 -> Prop) (A1 : mat O1) (A2 : mat O2) (B1 : mat O1) (B2 : mat O2) (C1 : mat O1) (C2 : mat O2) (t : triangle),
  respects R -> mat_related R A1 A2 -> mat_related R B1 B2 -> mat_related R C1 C2 -> 
  related_par R (kk_hermitian_matrix_left_product A1 t B1 C1) (kk_hermitian_matrix_left_product A2 t B2 C2).
Proof. rel_go. Qed.
Lemma rel_kk_hermitian_matrix_left_product_upd : forall (O1 O2 : ops) (R : O1 -> O2 -> Prop) (A1 : mat O1) (A2 : mat O2) (B1 : mat O1) (B2 : mat O2) (E1 : mat O1) (E2 : mat O2) (C1 : mat O1) (C2 : mat O2) (t : triangle),
  respects R -> mat_related R A1 A2 -> mat_related R B1 B2 -> mat_related R E1 E2 -> mat_related R C1 C2 -> 
  related_par R (kk_hermitian_matrix_left_product_upd A1 t B1 E1 C1) (kk_hermitian_matrix_left_product_upd A2 t B2 E2 C2).
Proof. rel_go. Qed.
Lemma rel_kk_hermitian_matrix_right_product : forall (O1 O2 : ops) (R : O1 -> O2 -> Prop) (A1 : mat O1) (A2 : mat O2) (B1 : mat O1) (B2 : mat O2) (C1 : mat O1) (C2 : mat O2) (t : triangle),
  respects R -> mat_related R A1 A2 -> mat_related R B1 B2 -> mat_related R C1 C2 -> 
  related_par R (kk_hermitian_matrix_right_product A1 t B1 C1) (kk_hermitian_matrix_right_product A2 t B2 C2).
Proof. rel_go. Qed.

Lemma rel_vector_idx_abs_max : forall (O1 O2 : ops) (R : O1 -> O2 -> Prop) M1 M2 (S : M1 -> M2 -> Prop) (mag1 : O1 -> M1) (mag2 : O2 -> M2)
    (ltb1 : M1 -> M1 -> bool) (ltb2 : M2 -> M2 -> bool) (size_max : N) (v1 : vec O1) (v2 : vec O2),
  respects R -> (forall x1 x2, R x1 x2 -> S (mag1 x1) (mag2 x2)) ->
  (forall x1 x2 y1 y2, S x1 x2 -> S y1 y2 -> ltb1 x1 y1 = ltb2 x2 y2) -> vec_related R v1 v2 ->
  related_runs R eq (vector_idx_abs_max mag1 ltb1 size_max v1) (vector_idx_abs_max mag2 ltb2 size_max v2).
Proof.
  intros O1 O2 R M1 M2 S mag1 mag2 ltb1 ltb2 size_max v1 v2 H Hm Hl Hv. apply like_runs. unfold vector_idx_abs_max. exts.
  destruct (vext v2 =? 0); [reflexivity|]. apply like_bind with (P := R); [apply like_vget; auto|]. intros a1 a2 Ha.
  apply like_bind with (P := fun r1 r2 => fst r1 = fst r2 /\ S (snd r1) (snd r2)); [|intros r1 r2 [E _]; simpl; rewrite E; auto].
  apply like_fold_range; [|simpl; auto]. intros i [n1 y1] [n2 y2] [E Hy]. simpl in E, Hy. subst n2.
  apply like_bind with (P := R); [apply like_vget; auto|]. intros b1 b2 Hb. simpl.
  rewrite (Hl y1 y2 (mag1 b1) (mag2 b2)); auto. destruct (ltb2 y2 (mag2 b2)); simpl; auto.
Qed.
Lemma homomorphism : forall (O1 O2 : ops) (h : O1 -> O2) A1 A2 (Q : A1 -> A2 -> Prop) (p1 : prog O1 A1) (p2 : prog O2 A2) m x m',
  related_runs (fun x1 x2 => x2 = h x1) Q p1 p2 -> run p1 m = Ok x m' ->
  exists y m2, run p2 (fun a => option_map h (m a)) = Ok y m2 /\ Q x y /\ forall a, m2 a = option_map h (m' a).
Proof.
  intros O1 O2 h A1 A2 Q p1 p2 m x m' H Hr. specialize (H m (fun a => option_map h (m a))).
  assert (K : mem_related (fun x1 x2 => x2 = h x1) m (fun a => option_map h (m a))) by (intros a; destruct (m a); simpl; auto).
  specialize (H K). rewrite Hr in H. destruct (run p2 (fun a => option_map h (m a))) as [y m2|]; [|tauto]. destruct H as [HQ HM].
  exists y, m2. split; auto. split; auto. intros a. specialize (HM a). destruct (m' a), (m2 a); simpl; try tauto. subst; auto.
Qed.
Lemma closed_subset : forall (O : ops) (P : O -> Prop) A (Q : A -> A -> Prop) (p : prog O A) m x m',
  related_runs (fun x1 x2 => x1 = x2 /\ P x1) Q p p -> (forall a v, m a = Some v -> P v) -> run p m = Ok x m' ->
  Q x x /\ forall a v, m' a = Some v -> P v.
Proof.
  intros O P A Q p m x m' H Hm Hr. specialize (H m m).
  assert (K : mem_related (fun x1 x2 => x1 = x2 /\ P x1) m m) by (intros a; destruct (m a) eqn:E; auto; split; eauto).
  specialize (H K). rewrite Hr in H. destruct H as [HQ HM]. split; auto. intros a v E. specialize (HM a). rewrite E in HM. tauto.
Qed.
Lemma views_related : forall (O1 O2 : ops) (R : O1 -> O2 -> Prop) (x1 : vec O1) (x2 : vec O2) (A1 : mat O1) (A2 : mat O2) alpha1 alpha2 b c e,
  vec_related R x1 x2 -> mat_related R A1 A2 -> R alpha1 alpha2 ->
  vec_related R (scaled_v alpha1 x1) (scaled_v alpha2 x2) /\ mat_related R (scaled_m alpha1 A1) (scaled_m alpha2 A2) /\
  vec_related R (conjugated_v b c x1) (conjugated_v b c x2) /\ mat_related R (conjugated_m b c A1) (conjugated_m b c A2) /\
  match transposed e A1, transposed e A2 with Some T1, Some T2 => mat_related R T1 T2 | None, None => True | _, _ => False end /\
  match conjugate_transposed e b c A1, conjugate_transposed e b c A2 with
  | Some T1, Some T2 => mat_related R T1 T2 | None, None => True | _, _ => False end.
Proof.
  intros O1 O2 R x1 x2 A1 A2 alpha1 alpha2 b c e Hx HA Ha.
  assert (KC : forall c1 c2, acc_related R c1 c2 -> acc_related R (conj_acc b c c1) (conj_acc b c c2)).
  { intros c1 c2 Hc. destruct c1, c2; simpl in *; try tauto; destruct (b && c); simpl; auto. }
  assert (Hx' := Hx). assert (HA' := HA). destruct Hx' as [X1 [X2 [X3 X4]]]. destruct HA' as [Y1 [Y2 [Y3 [Y4 Y5]]]].
  repeat split; simpl; auto.
  - unfold transposed. rewrite Y2, Y3, Y4. destruct (transposed_layout e (mlay A2) (ext0 A2) (ext1 A2)); auto. repeat split; auto.
  - unfold conjugate_transposed, transposed. rewrite Y2, Y3, Y4. destruct (transposed_layout e (mlay A2) (ext0 A2) (ext1 A2)); auto.
    repeat split; simpl; auto.
Qed.

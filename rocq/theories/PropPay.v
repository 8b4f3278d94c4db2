(** C94: sign and payload of NaNs are irrelevant. *)
From Coq Require Import List Arith NArith ZArith Bool Lia.
From Flocq Require Import Core.Core IEEE754.BinarySingleNaN IEEE754.Binary.
From Verif Require Import Mem Scalar View Spec Idx Blas1 Blas2 Blas3 Norm Givens Ieee IeeeC Payload Par KK Red KKNorm SpecRel SpecRel2 SpecPay PfRel PfRel2 PfRel3 PfPay Inst PropRel PropRel2.
Import ListNotations.

(** All of C86 applies to the relations "the same number, or both NaN" (for any two ways of choosing the bits of NaNs) and
    "equal if signs and payloads of NaNs are forgotten". *)
Theorem C94_real : forall prec emax (Hp : Prec_gt_0 prec) (He : Prec_lt_emax prec emax) (N1 N2 : nan_choice prec emax),
  @respects (pay_ops prec emax Hp He N1) (pay_ops prec emax Hp He N2) same_number /\
  @respects_op (pay_ops prec emax Hp He N1) (pay_ops prec emax Hp He N2) same_number (@div _) (@div _) /\
  @respects_mag (pay_r prec emax Hp He N1) (pay_r prec emax Hp He N2) same_number /\
  @mags_related (pay_ops prec emax Hp He N1) (pay_ops prec emax Hp He N2) (pay_r prec emax Hp He N1) (pay_r prec emax Hp He N2)
    same_number same_number (pay_mags prec emax Hp He N1) (pay_mags prec emax Hp He N2).
Proof. intros. split; [apply same_respects|split; [apply same_div|split; [apply same_mag|apply same_mags]]]. Qed.
Print Assumptions C94_real.
Theorem C94_complex : forall prec emax (Hp : Prec_gt_0 prec) (He : Prec_lt_emax prec emax) (N1 N2 : nan_choice prec emax) rec1 div1 rec2 div2,
  (forall x1 x2 y1 y2, same_complex x1 x2 -> same_complex y1 y2 -> same_complex (rec1 x1 y1) (rec2 x2 y2)) ->
  @respects (pay_c prec emax Hp He N1 rec1 div1) (pay_c prec emax Hp He N2 rec2 div2) same_complex.
Proof. exact same_complex_respects. Qed.
Print Assumptions C94_complex.
Theorem C94_forget : forall prec emax (Hp : Prec_gt_0 prec) (He : Prec_lt_emax prec emax) (N : nan_choice prec emax),
  @respects (pay_ops prec emax Hp He N) (ieee_ops prec emax Hp He) forgets /\
  @respects_op (pay_ops prec emax Hp He N) (ieee_ops prec emax Hp He) forgets (@div _) (@div _) /\
  @respects_mag (pay_r prec emax Hp He N) (ieee_r prec emax Hp He) forgets /\
  @mags_related (pay_ops prec emax Hp He N) (ieee_ops prec emax Hp He) (pay_r prec emax Hp He N) (ieee_r prec emax Hp He) forgets forgets
    (pay_mags prec emax Hp He N)
    (@Mags (ieee_ops prec emax Hp He) (ieee_r prec emax Hp He) true (@BinarySingleNaN.Babs prec emax) (fun x => x) (fun _ => BinarySingleNaN.B754_zero false)).
Proof. intros. split; [apply forgets_respects|split; [apply forgets_div|split; [apply forgets_mag|apply forgets_mags]]]. Qed.
Print Assumptions C94_forget.
Theorem C94_forget_complex : forall prec emax (Hp : Prec_gt_0 prec) (He : Prec_lt_emax prec emax) (N : nan_choice prec emax) rec1 div1 rec2 div2,
  (forall x1 x2 y1 y2, forgets_c x1 x2 -> forgets_c y1 y2 -> forgets_c (rec1 x1 y1) (rec2 x2 y2)) ->
  @respects (pay_c prec emax Hp He N rec1 div1) (ieee_c prec emax Hp He rec2 div2) forgets_c.
Proof. exact forgets_complex. Qed.
Print Assumptions C94_forget_complex.

(** * The algorithms: two runs on data that agree up to NaNs *)
Theorem C94_dot : forall prec emax (Hp : Prec_gt_0 prec) (He : Prec_lt_emax prec emax) (N1 N2 : nan_choice prec emax) (v11 : vec (pay_ops prec emax Hp He N1)) (v12 : vec (pay_ops prec emax Hp He N2)) (v21 : vec (pay_ops prec emax Hp He N1)) (v22 : vec (pay_ops prec emax Hp He N2)) (init1 : car (pay_ops prec emax Hp He N1)) (init2 : car (pay_ops prec emax Hp He N2)),
  @vec_related (pay_ops prec emax Hp He N1) (pay_ops prec emax Hp He N2) same_number v11 v12 -> @vec_related (pay_ops prec emax Hp He N1) (pay_ops prec emax Hp He N2) same_number v21 v22 -> same_number init1 init2 -> 
  @related_runs (pay_ops prec emax Hp He N1) (pay_ops prec emax Hp He N2) _ _ same_number same_number (dot v11 v21 init1) (dot v12 v22 init2).
Proof. intros. apply (@C86_dot (pay_ops prec emax Hp He N1) (pay_ops prec emax Hp He N2) same_number); auto; apply C94_real. Qed.
Print Assumptions C94_dot.
Theorem C94_matrix_vector_product_upd : forall prec emax (Hp : Prec_gt_0 prec) (He : Prec_lt_emax prec emax) (N1 N2 : nan_choice prec emax) (A1 : mat (pay_ops prec emax Hp He N1)) (A2 : mat (pay_ops prec emax Hp He N2)) (x1 : vec (pay_ops prec emax Hp He N1)) (x2 : vec (pay_ops prec emax Hp He N2)) (y1 : vec (pay_ops prec emax Hp He N1)) (y2 : vec (pay_ops prec emax Hp He N2)) (z1 : vec (pay_ops prec emax Hp He N1)) (z2 : vec (pay_ops prec emax Hp He N2)),
  @mat_related (pay_ops prec emax Hp He N1) (pay_ops prec emax Hp He N2) same_number A1 A2 -> @vec_related (pay_ops prec emax Hp He N1) (pay_ops prec emax Hp He N2) same_number x1 x2 -> @vec_related (pay_ops prec emax Hp He N1) (pay_ops prec emax Hp He N2) same_number y1 y2 -> @vec_related (pay_ops prec emax Hp He N1) (pay_ops prec emax Hp He N2) same_number z1 z2 -> 
  @related_runs (pay_ops prec emax Hp He N1) (pay_ops prec emax Hp He N2) _ _ same_number eq (matrix_vector_product_upd A1 x1 y1 z1) (matrix_vector_product_upd A2 x2 y2 z2).
Proof. intros. apply (@C86_matrix_vector_product_upd (pay_ops prec emax Hp He N1) (pay_ops prec emax Hp He N2) same_number); auto; apply C94_real. Qed.
Print Assumptions C94_matrix_vector_product_upd.
Theorem C94_matrix_product_upd : forall prec emax (Hp : Prec_gt_0 prec) (He : Prec_lt_emax prec emax) (N1 N2 : nan_choice prec emax) (A1 : mat (pay_ops prec emax Hp He N1)) (A2 : mat (pay_ops prec emax Hp He N2)) (B1 : mat (pay_ops prec emax Hp He N1)) (B2 : mat (pay_ops prec emax Hp He N2)) (E1 : mat (pay_ops prec emax Hp He N1)) (E2 : mat (pay_ops prec emax Hp He N2)) (C1 : mat (pay_ops prec emax Hp He N1)) (C2 : mat (pay_ops prec emax Hp He N2)),
  @mat_related (pay_ops prec emax Hp He N1) (pay_ops prec emax Hp He N2) same_number A1 A2 -> @mat_related (pay_ops prec emax Hp He N1) (pay_ops prec emax Hp He N2) same_number B1 B2 -> @mat_related (pay_ops prec emax Hp He N1) (pay_ops prec emax Hp He N2) same_number E1 E2 -> @mat_related (pay_ops prec emax Hp He N1) (pay_ops prec emax Hp He N2) same_number C1 C2 -> 
  @related_runs (pay_ops prec emax Hp He N1) (pay_ops prec emax Hp He N2) _ _ same_number eq (matrix_product_upd A1 B1 E1 C1) (matrix_product_upd A2 B2 E2 C2).
Proof. intros. apply (@C86_matrix_product_upd (pay_ops prec emax Hp He N1) (pay_ops prec emax Hp He N2) same_number); auto; apply C94_real. Qed.
Print Assumptions C94_matrix_product_upd.
Theorem C94_triangular_matrix_vector_solve : forall prec emax (Hp : Prec_gt_0 prec) (He : Prec_lt_emax prec emax) (N1 N2 : nan_choice prec emax) (A1 : mat (pay_ops prec emax Hp He N1)) (A2 : mat (pay_ops prec emax Hp He N2)) (b1 : vec (pay_ops prec emax Hp He N1)) (b2 : vec (pay_ops prec emax Hp He N2)) (x1 : vec (pay_ops prec emax Hp He N1)) (x2 : vec (pay_ops prec emax Hp He N2)) (ty : ity) (t : triangle) (d : diagonal),
  @mat_related (pay_ops prec emax Hp He N1) (pay_ops prec emax Hp He N2) same_number A1 A2 -> @vec_related (pay_ops prec emax Hp He N1) (pay_ops prec emax Hp He N2) same_number b1 b2 -> @vec_related (pay_ops prec emax Hp He N1) (pay_ops prec emax Hp He N2) same_number x1 x2 -> 
  @related_runs (pay_ops prec emax Hp He N1) (pay_ops prec emax Hp He N2) _ _ same_number eq (triangular_matrix_vector_solve ty A1 t d b1 x1) (triangular_matrix_vector_solve ty A2 t d b2 x2).
Proof. intros. apply (@C86_triangular_matrix_vector_solve (pay_ops prec emax Hp He N1) (pay_ops prec emax Hp He N2) same_number); auto; apply C94_real. Qed.
Print Assumptions C94_triangular_matrix_vector_solve.
Theorem C94_triangular_matrix_matrix_left_solve : forall prec emax (Hp : Prec_gt_0 prec) (He : Prec_lt_emax prec emax) (N1 N2 : nan_choice prec emax) (A1 : mat (pay_ops prec emax Hp He N1)) (A2 : mat (pay_ops prec emax Hp He N2)) (B1 : mat (pay_ops prec emax Hp He N1)) (B2 : mat (pay_ops prec emax Hp He N2)) (X1 : mat (pay_ops prec emax Hp He N1)) (X2 : mat (pay_ops prec emax Hp He N2)) (ty : ity) (t : triangle) (d : diagonal),
  @mat_related (pay_ops prec emax Hp He N1) (pay_ops prec emax Hp He N2) same_number A1 A2 -> @mat_related (pay_ops prec emax Hp He N1) (pay_ops prec emax Hp He N2) same_number B1 B2 -> @mat_related (pay_ops prec emax Hp He N1) (pay_ops prec emax Hp He N2) same_number X1 X2 -> 
  @related_runs (pay_ops prec emax Hp He N1) (pay_ops prec emax Hp He N2) _ _ same_number eq (triangular_matrix_matrix_left_solve ty A1 t d B1 X1) (triangular_matrix_matrix_left_solve ty A2 t d B2 X2).
Proof. intros. apply (@C86_triangular_matrix_matrix_left_solve (pay_ops prec emax Hp He N1) (pay_ops prec emax Hp He N2) same_number); auto; apply C94_real. Qed.
Print Assumptions C94_triangular_matrix_matrix_left_solve.
Theorem C94_triangular_matrix_matrix_right_solve : forall prec emax (Hp : Prec_gt_0 prec) (He : Prec_lt_emax prec emax) (N1 N2 : nan_choice prec emax) (A1 : mat (pay_ops prec emax Hp He N1)) (A2 : mat (pay_ops prec emax Hp He N2)) (B1 : mat (pay_ops prec emax Hp He N1)) (B2 : mat (pay_ops prec emax Hp He N2)) (X1 : mat (pay_ops prec emax Hp He N1)) (X2 : mat (pay_ops prec emax Hp He N2)) (ty : ity) (t : triangle) (d : diagonal),
  @mat_related (pay_ops prec emax Hp He N1) (pay_ops prec emax Hp He N2) same_number A1 A2 -> @mat_related (pay_ops prec emax Hp He N1) (pay_ops prec emax Hp He N2) same_number B1 B2 -> @mat_related (pay_ops prec emax Hp He N1) (pay_ops prec emax Hp He N2) same_number X1 X2 -> 
  @related_runs (pay_ops prec emax Hp He N1) (pay_ops prec emax Hp He N2) _ _ same_number eq (triangular_matrix_matrix_right_solve ty A1 t d B1 X1) (triangular_matrix_matrix_right_solve ty A2 t d B2 X2).
Proof. intros. apply (@C86_triangular_matrix_matrix_right_solve (pay_ops prec emax Hp He N1) (pay_ops prec emax Hp He N2) same_number); auto; apply C94_real. Qed.
Print Assumptions C94_triangular_matrix_matrix_right_solve.
Theorem C94_triangular_matrix_vector_product_inplace : forall prec emax (Hp : Prec_gt_0 prec) (He : Prec_lt_emax prec emax) (N1 N2 : nan_choice prec emax) (A1 : mat (pay_ops prec emax Hp He N1)) (A2 : mat (pay_ops prec emax Hp He N2)) (y1 : vec (pay_ops prec emax Hp He N1)) (y2 : vec (pay_ops prec emax Hp He N2)) (t : triangle) (d : diagonal),
  @mat_related (pay_ops prec emax Hp He N1) (pay_ops prec emax Hp He N2) same_number A1 A2 -> @vec_related (pay_ops prec emax Hp He N1) (pay_ops prec emax Hp He N2) same_number y1 y2 -> 
  @related_runs (pay_ops prec emax Hp He N1) (pay_ops prec emax Hp He N2) _ _ same_number eq (triangular_matrix_vector_product_inplace A1 t d y1) (triangular_matrix_vector_product_inplace A2 t d y2).
Proof. intros. apply (@C86_triangular_matrix_vector_product_inplace (pay_ops prec emax Hp He N1) (pay_ops prec emax Hp He N2) same_number); auto; apply C94_real. Qed.
Print Assumptions C94_triangular_matrix_vector_product_inplace.
Theorem C94_apply_givens_rotation : forall prec emax (Hp : Prec_gt_0 prec) (He : Prec_lt_emax prec emax) (N1 N2 : nan_choice prec emax) (x1 : vec (pay_ops prec emax Hp He N1)) (x2 : vec (pay_ops prec emax Hp He N2)) (y1 : vec (pay_ops prec emax Hp He N1)) (y2 : vec (pay_ops prec emax Hp He N2)) (c1 : car (pay_ops prec emax Hp He N1)) (c2 : car (pay_ops prec emax Hp He N2)) (s1 : car (pay_ops prec emax Hp He N1)) (s2 : car (pay_ops prec emax Hp He N2)),
  @vec_related (pay_ops prec emax Hp He N1) (pay_ops prec emax Hp He N2) same_number x1 x2 -> @vec_related (pay_ops prec emax Hp He N1) (pay_ops prec emax Hp He N2) same_number y1 y2 -> same_number c1 c2 -> same_number s1 s2 -> 
  @related_runs (pay_ops prec emax Hp He N1) (pay_ops prec emax Hp He N2) _ _ same_number eq (apply_givens_rotation x1 y1 c1 s1) (apply_givens_rotation x2 y2 c2 s2).
Proof. intros. apply (@C86_apply_givens_rotation (pay_ops prec emax Hp He N1) (pay_ops prec emax Hp He N2) same_number); auto; apply C94_real. Qed.
Print Assumptions C94_apply_givens_rotation.
Theorem C94_symmetric_matrix_rank_2k_update : forall prec emax (Hp : Prec_gt_0 prec) (He : Prec_lt_emax prec emax) (N1 N2 : nan_choice prec emax) (A1 : mat (pay_ops prec emax Hp He N1)) (A2 : mat (pay_ops prec emax Hp He N2)) (B1 : mat (pay_ops prec emax Hp He N1)) (B2 : mat (pay_ops prec emax Hp He N2)) (C1 : mat (pay_ops prec emax Hp He N1)) (C2 : mat (pay_ops prec emax Hp He N2)) (t : triangle),
  @mat_related (pay_ops prec emax Hp He N1) (pay_ops prec emax Hp He N2) same_number A1 A2 -> @mat_related (pay_ops prec emax Hp He N1) (pay_ops prec emax Hp He N2) same_number B1 B2 -> @mat_related (pay_ops prec emax Hp He N1) (pay_ops prec emax Hp He N2) same_number C1 C2 -> 
  @related_runs (pay_ops prec emax Hp He N1) (pay_ops prec emax Hp He N2) _ _ same_number eq (symmetric_matrix_rank_2k_update A1 B1 C1 t) (symmetric_matrix_rank_2k_update A2 B2 C2 t).
Proof. intros. apply (@C86_symmetric_matrix_rank_2k_update (pay_ops prec emax Hp He N1) (pay_ops prec emax Hp He N2) same_number); auto; apply C94_real. Qed.
Print Assumptions C94_symmetric_matrix_rank_2k_update.
Theorem C94_vector_two_norm : forall prec emax (Hp : Prec_gt_0 prec) (He : Prec_lt_emax prec emax) (N1 N2 : nan_choice prec emax) (x1 : vec (pay_ops prec emax Hp He N1)) (x2 : vec (pay_ops prec emax Hp He N2)) (init1 : rcar (pay_r prec emax Hp He N1)) (init2 : rcar (pay_r prec emax Hp He N2)),
  @vec_related (pay_ops prec emax Hp He N1) (pay_ops prec emax Hp He N2) same_number x1 x2 -> same_number init1 init2 -> 
  @related_runs (pay_ops prec emax Hp He N1) (pay_ops prec emax Hp He N2) _ _ same_number same_number (vector_two_norm (pay_mags prec emax Hp He N1) x1 init1) (vector_two_norm (pay_mags prec emax Hp He N2) x2 init2).
Proof. intros. apply (@C86_vector_two_norm (pay_ops prec emax Hp He N1) (pay_ops prec emax Hp He N2) same_number (pay_r prec emax Hp He N1) (pay_r prec emax Hp He N2) same_number (pay_mags prec emax Hp He N1) (pay_mags prec emax Hp He N2)); auto; apply C94_real. Qed.
Print Assumptions C94_vector_two_norm.
Theorem C94_vector_sum_of_squares : forall prec emax (Hp : Prec_gt_0 prec) (He : Prec_lt_emax prec emax) (N1 N2 : nan_choice prec emax) (x1 : vec (pay_ops prec emax Hp He N1)) (x2 : vec (pay_ops prec emax Hp He N2)) (init1 : @sum_of_squares_result (pay_r prec emax Hp He N1)) (init2 : @sum_of_squares_result (pay_r prec emax Hp He N2)),
  @vec_related (pay_ops prec emax Hp He N1) (pay_ops prec emax Hp He N2) same_number x1 x2 -> @ssq_related (pay_r prec emax Hp He N1) (pay_r prec emax Hp He N2) same_number init1 init2 -> 
  @related_runs (pay_ops prec emax Hp He N1) (pay_ops prec emax Hp He N2) _ _ same_number (@ssq_related (pay_r prec emax Hp He N1) (pay_r prec emax Hp He N2) same_number) (vector_sum_of_squares (pay_mags prec emax Hp He N1) x1 init1) (vector_sum_of_squares (pay_mags prec emax Hp He N2) x2 init2).
Proof. intros. apply (@C86_vector_sum_of_squares (pay_ops prec emax Hp He N1) (pay_ops prec emax Hp He N2) same_number (pay_r prec emax Hp He N1) (pay_r prec emax Hp He N2) same_number (pay_mags prec emax Hp He N1) (pay_mags prec emax Hp He N2)); auto; apply C94_real. Qed.
Print Assumptions C94_vector_sum_of_squares.
Theorem C94_matrix_frob_norm : forall prec emax (Hp : Prec_gt_0 prec) (He : Prec_lt_emax prec emax) (N1 N2 : nan_choice prec emax) (A1 : mat (pay_ops prec emax Hp He N1)) (A2 : mat (pay_ops prec emax Hp He N2)) (init1 : rcar (pay_r prec emax Hp He N1)) (init2 : rcar (pay_r prec emax Hp He N2)),
  @mat_related (pay_ops prec emax Hp He N1) (pay_ops prec emax Hp He N2) same_number A1 A2 -> same_number init1 init2 -> 
  @related_runs (pay_ops prec emax Hp He N1) (pay_ops prec emax Hp He N2) _ _ same_number same_number (matrix_frob_norm (pay_mags prec emax Hp He N1) A1 init1) (matrix_frob_norm (pay_mags prec emax Hp He N2) A2 init2).
Proof. intros. apply (@C86_matrix_frob_norm (pay_ops prec emax Hp He N1) (pay_ops prec emax Hp He N2) same_number (pay_r prec emax Hp He N1) (pay_r prec emax Hp He N2) same_number (pay_mags prec emax Hp He N1) (pay_mags prec emax Hp He N2)); auto; apply C94_real. Qed.
Print Assumptions C94_matrix_frob_norm.
Theorem C94_matrix_inf_norm : forall prec emax (Hp : Prec_gt_0 prec) (He : Prec_lt_emax prec emax) (N1 N2 : nan_choice prec emax) (A1 : mat (pay_ops prec emax Hp He N1)) (A2 : mat (pay_ops prec emax Hp He N2)) (init1 : rcar (pay_r prec emax Hp He N1)) (init2 : rcar (pay_r prec emax Hp He N2)),
  @mat_related (pay_ops prec emax Hp He N1) (pay_ops prec emax Hp He N2) same_number A1 A2 -> same_number init1 init2 -> 
  @related_runs (pay_ops prec emax Hp He N1) (pay_ops prec emax Hp He N2) _ _ same_number same_number (matrix_inf_norm (pay_mags prec emax Hp He N1) A1 init1) (matrix_inf_norm (pay_mags prec emax Hp He N2) A2 init2).
Proof. intros. apply (@C86_matrix_inf_norm (pay_ops prec emax Hp He N1) (pay_ops prec emax Hp He N2) same_number (pay_r prec emax Hp He N1) (pay_r prec emax Hp He N2) same_number (pay_mags prec emax Hp He N1) (pay_mags prec emax Hp He N2)); auto; apply C94_real. Qed.
Print Assumptions C94_matrix_inf_norm.
Theorem C94_kk_matrix_vector_product_upd : forall prec emax (Hp : Prec_gt_0 prec) (He : Prec_lt_emax prec emax) (N1 N2 : nan_choice prec emax) (A1 : mat (pay_ops prec emax Hp He N1)) (A2 : mat (pay_ops prec emax Hp He N2)) (x1 : vec (pay_ops prec emax Hp He N1)) (x2 : vec (pay_ops prec emax Hp He N2)) (y1 : vec (pay_ops prec emax Hp He N1)) (y2 : vec (pay_ops prec emax Hp He N2)) (z1 : vec (pay_ops prec emax Hp He N1)) (z2 : vec (pay_ops prec emax Hp He N2)),
  @mat_related (pay_ops prec emax Hp He N1) (pay_ops prec emax Hp He N2) same_number A1 A2 -> @vec_related (pay_ops prec emax Hp He N1) (pay_ops prec emax Hp He N2) same_number x1 x2 -> @vec_related (pay_ops prec emax Hp He N1) (pay_ops prec emax Hp He N2) same_number y1 y2 -> @vec_related (pay_ops prec emax Hp He N1) (pay_ops prec emax Hp He N2) same_number z1 z2 -> 
  @related_par (pay_ops prec emax Hp He N1) (pay_ops prec emax Hp He N2) same_number (kk_matrix_vector_product_upd A1 x1 y1 z1) (kk_matrix_vector_product_upd A2 x2 y2 z2).
Proof. intros. apply (@C86_kk_matrix_vector_product_upd (pay_ops prec emax Hp He N1) (pay_ops prec emax Hp He N2) same_number); auto; apply C94_real. Qed.
Print Assumptions C94_kk_matrix_vector_product_upd.
Theorem C94_kk_dot : forall prec emax (Hp : Prec_gt_0 prec) (He : Prec_lt_emax prec emax) (N1 N2 : nan_choice prec emax) (x1 : vec (pay_ops prec emax Hp He N1)) (x2 : vec (pay_ops prec emax Hp He N2)) (y1 : vec (pay_ops prec emax Hp He N1)) (y2 : vec (pay_ops prec emax Hp He N2)) (init1 : (pay_ops prec emax Hp He N1)) (init2 : (pay_ops prec emax Hp He N2)),
  @vec_related (pay_ops prec emax Hp He N1) (pay_ops prec emax Hp He N2) same_number x1 x2 -> @vec_related (pay_ops prec emax Hp He N1) (pay_ops prec emax Hp He N2) same_number y1 y2 -> same_number init1 init2 ->
  @related_red (pay_ops prec emax Hp He N1) (pay_ops prec emax Hp He N2) _ _ _ _ same_number same_number (kk_dot x1 y1 init1) (kk_dot x2 y2 init2).
Proof. intros. apply (@C86_kk_dot (pay_ops prec emax Hp He N1) (pay_ops prec emax Hp He N2) same_number); auto; apply C94_real. Qed.
Print Assumptions C94_kk_dot.
Theorem C94_kk_vector_norm2 : forall prec emax (Hp : Prec_gt_0 prec) (He : Prec_lt_emax prec emax) (N1 N2 : nan_choice prec emax) (x1 : vec (pay_ops prec emax Hp He N1)) (x2 : vec (pay_ops prec emax Hp He N2)) (init1 : (pay_r prec emax Hp He N1)) (init2 : (pay_r prec emax Hp He N2)),
  @vec_related (pay_ops prec emax Hp He N1) (pay_ops prec emax Hp He N2) same_number x1 x2 -> same_number init1 init2 ->
  @related_red (pay_ops prec emax Hp He N1) (pay_ops prec emax Hp He N2) _ _ _ _ same_number same_number (kk_vector_norm2 (pay_mags prec emax Hp He N1) x1 init1) (kk_vector_norm2 (pay_mags prec emax Hp He N2) x2 init2).
Proof. intros. apply (@C86_kk_vector_norm2 (pay_ops prec emax Hp He N1) (pay_ops prec emax Hp He N2) same_number (pay_r prec emax Hp He N1) (pay_r prec emax Hp He N2) same_number (pay_mags prec emax Hp He N1) (pay_mags prec emax Hp He N2)); auto; apply C94_real. Qed.
Print Assumptions C94_kk_vector_norm2.
Theorem C94_complex_dotc : forall prec emax (Hp : Prec_gt_0 prec) (He : Prec_lt_emax prec emax) (N1 N2 : nan_choice prec emax) rec1 div1 rec2 div2 (v11 : vec (pay_c prec emax Hp He N1 rec1 div1)) (v12 : vec (pay_c prec emax Hp He N2 rec2 div2)) (v21 : vec (pay_c prec emax Hp He N1 rec1 div1)) (v22 : vec (pay_c prec emax Hp He N2 rec2 div2)) (init1 : car (pay_c prec emax Hp He N1 rec1 div1)) (init2 : car (pay_c prec emax Hp He N2 rec2 div2)) (fix_nc : bool) (noncomplex : bool),
  (forall x1 x2 y1 y2, same_complex x1 x2 -> same_complex y1 y2 -> same_complex (rec1 x1 y1) (rec2 x2 y2)) ->
  @vec_related (pay_c prec emax Hp He N1 rec1 div1) (pay_c prec emax Hp He N2 rec2 div2) same_complex v11 v12 -> @vec_related (pay_c prec emax Hp He N1 rec1 div1) (pay_c prec emax Hp He N2 rec2 div2) same_complex v21 v22 -> same_complex init1 init2 -> 
  @related_runs (pay_c prec emax Hp He N1 rec1 div1) (pay_c prec emax Hp He N2 rec2 div2) _ _ same_complex same_complex (dotc fix_nc noncomplex v11 v21 init1) (dotc fix_nc noncomplex v12 v22 init2).
Proof. intros. apply (@C86_dotc (pay_c prec emax Hp He N1 rec1 div1) (pay_c prec emax Hp He N2 rec2 div2) same_complex); auto; apply C94_complex; auto. Qed.
Print Assumptions C94_complex_dotc.
Theorem C94_complex_hermitian_matrix_rank_k_update_alpha : forall prec emax (Hp : Prec_gt_0 prec) (He : Prec_lt_emax prec emax) (N1 N2 : nan_choice prec emax) rec1 div1 rec2 div2 (alpha1 : car (pay_c prec emax Hp He N1 rec1 div1)) (alpha2 : car (pay_c prec emax Hp He N2 rec2 div2)) (A1 : mat (pay_c prec emax Hp He N1 rec1 div1)) (A2 : mat (pay_c prec emax Hp He N2 rec2 div2)) (C1 : mat (pay_c prec emax Hp He N1 rec1 div1)) (C2 : mat (pay_c prec emax Hp He N2 rec2 div2)) (t : triangle),
  (forall x1 x2 y1 y2, same_complex x1 x2 -> same_complex y1 y2 -> same_complex (rec1 x1 y1) (rec2 x2 y2)) ->
  same_complex alpha1 alpha2 -> @mat_related (pay_c prec emax Hp He N1 rec1 div1) (pay_c prec emax Hp He N2 rec2 div2) same_complex A1 A2 -> @mat_related (pay_c prec emax Hp He N1 rec1 div1) (pay_c prec emax Hp He N2 rec2 div2) same_complex C1 C2 -> 
  @related_runs (pay_c prec emax Hp He N1 rec1 div1) (pay_c prec emax Hp He N2 rec2 div2) _ _ same_complex eq (hermitian_matrix_rank_k_update_alpha alpha1 A1 C1 t) (hermitian_matrix_rank_k_update_alpha alpha2 A2 C2 t).
Proof. intros. apply (@C86_hermitian_matrix_rank_k_update_alpha (pay_c prec emax Hp He N1 rec1 div1) (pay_c prec emax Hp He N2 rec2 div2) same_complex); auto; apply C94_complex; auto. Qed.
Print Assumptions C94_complex_hermitian_matrix_rank_k_update_alpha.
Theorem C94_complex_hermitian_matrix_vector_product_upd : forall prec emax (Hp : Prec_gt_0 prec) (He : Prec_lt_emax prec emax) (N1 N2 : nan_choice prec emax) rec1 div1 rec2 div2 (A1 : mat (pay_c prec emax Hp He N1 rec1 div1)) (A2 : mat (pay_c prec emax Hp He N2 rec2 div2)) (x1 : vec (pay_c prec emax Hp He N1 rec1 div1)) (x2 : vec (pay_c prec emax Hp He N2 rec2 div2)) (y1 : vec (pay_c prec emax Hp He N1 rec1 div1)) (y2 : vec (pay_c prec emax Hp He N2 rec2 div2)) (z1 : vec (pay_c prec emax Hp He N1 rec1 div1)) (z2 : vec (pay_c prec emax Hp He N2 rec2 div2)) (t : triangle),
  (forall x1 x2 y1 y2, same_complex x1 x2 -> same_complex y1 y2 -> same_complex (rec1 x1 y1) (rec2 x2 y2)) ->
  @mat_related (pay_c prec emax Hp He N1 rec1 div1) (pay_c prec emax Hp He N2 rec2 div2) same_complex A1 A2 -> @vec_related (pay_c prec emax Hp He N1 rec1 div1) (pay_c prec emax Hp He N2 rec2 div2) same_complex x1 x2 -> @vec_related (pay_c prec emax Hp He N1 rec1 div1) (pay_c prec emax Hp He N2 rec2 div2) same_complex y1 y2 -> @vec_related (pay_c prec emax Hp He N1 rec1 div1) (pay_c prec emax Hp He N2 rec2 div2) same_complex z1 z2 -> 
  @related_runs (pay_c prec emax Hp He N1 rec1 div1) (pay_c prec emax Hp He N2 rec2 div2) _ _ same_complex eq (hermitian_matrix_vector_product_upd A1 t x1 y1 z1) (hermitian_matrix_vector_product_upd A2 t x2 y2 z2).
Proof. intros. apply (@C86_hermitian_matrix_vector_product_upd (pay_c prec emax Hp He N1 rec1 div1) (pay_c prec emax Hp He N2 rec2 div2) same_complex); auto; apply C94_complex; auto. Qed.
Print Assumptions C94_complex_hermitian_matrix_vector_product_upd.
Theorem C94_complex_matrix_product_upd : forall prec emax (Hp : Prec_gt_0 prec) (He : Prec_lt_emax prec emax) (N1 N2 : nan_choice prec emax) rec1 div1 rec2 div2 (A1 : mat (pay_c prec emax Hp He N1 rec1 div1)) (A2 : mat (pay_c prec emax Hp He N2 rec2 div2)) (B1 : mat (pay_c prec emax Hp He N1 rec1 div1)) (B2 : mat (pay_c prec emax Hp He N2 rec2 div2)) (E1 : mat (pay_c prec emax Hp He N1 rec1 div1)) (E2 : mat (pay_c prec emax Hp He N2 rec2 div2)) (C1 : mat (pay_c prec emax Hp He N1 rec1 div1)) (C2 : mat (pay_c prec emax Hp He N2 rec2 div2)),
  (forall x1 x2 y1 y2, same_complex x1 x2 -> same_complex y1 y2 -> same_complex (rec1 x1 y1) (rec2 x2 y2)) ->
  @mat_related (pay_c prec emax Hp He N1 rec1 div1) (pay_c prec emax Hp He N2 rec2 div2) same_complex A1 A2 -> @mat_related (pay_c prec emax Hp He N1 rec1 div1) (pay_c prec emax Hp He N2 rec2 div2) same_complex B1 B2 -> @mat_related (pay_c prec emax Hp He N1 rec1 div1) (pay_c prec emax Hp He N2 rec2 div2) same_complex E1 E2 -> @mat_related (pay_c prec emax Hp He N1 rec1 div1) (pay_c prec emax Hp He N2 rec2 div2) same_complex C1 C2 -> 
  @related_runs (pay_c prec emax Hp He N1 rec1 div1) (pay_c prec emax Hp He N2 rec2 div2) _ _ same_complex eq (matrix_product_upd A1 B1 E1 C1) (matrix_product_upd A2 B2 E2 C2).
Proof. intros. apply (@C86_matrix_product_upd (pay_c prec emax Hp He N1 rec1 div1) (pay_c prec emax Hp He N2 rec2 div2) same_complex); auto; apply C94_complex; auto. Qed.
Print Assumptions C94_complex_matrix_product_upd.
(** The set-up of rotations, for any hypot that itself does not look at the bits of NaNs *)
Theorem C94_setup_givens_rotation : forall prec emax (Hp : Prec_gt_0 prec) (He : Prec_lt_emax prec emax) (N1 N2 : nan_choice prec emax) h1 h2 (safmn1 safmn2 f1 f2 g1 g2 : Binary.binary_float prec emax) fuel,
  (forall x1 x2 y1 y2, same_number x1 x2 -> same_number y1 y2 -> same_number (h1 x1 y1) (h2 x2 y2)) ->
  same_number safmn1 safmn2 -> same_number f1 f2 -> same_number g1 g2 ->
  option_related (pair_related (pair_related same_number same_number) same_number)
    (@setup_givens_rotation (pay_f prec emax Hp He N1 h1) safmn1 fuel f1 g1) (@setup_givens_rotation (pay_f prec emax Hp He N2 h2) safmn2 fuel f2 g2).
Proof. intros. apply (@C86_setup_givens_rotation (pay_f prec emax Hp He N1 h1) (pay_f prec emax Hp He N2 h2) same_number); auto. apply same_float; auto. Qed.
Print Assumptions C94_setup_givens_rotation.
Theorem C94_setup_givens_rotation_complex : forall prec emax (Hp : Prec_gt_0 prec) (He : Prec_lt_emax prec emax) (N1 N2 : nan_choice prec emax) h1 h2 (sm1 sm2 safmn1 safmn2 : Binary.binary_float prec emax) (f1 f2 g1 g2 : pcfl prec emax) fuel,
  (forall x1 x2 y1 y2, same_number x1 x2 -> same_number y1 y2 -> same_number (h1 x1 y1) (h2 x2 y2)) ->
  same_number sm1 sm2 -> same_number safmn1 safmn2 -> same_complex f1 f2 -> same_complex g1 g2 ->
  option_related (pair_related (pair_related same_number same_complex) same_complex)
    (@setup_givens_rotation_complex (pay_f prec emax Hp He N1 h1) sm1 safmn1 fuel f1 g1) (@setup_givens_rotation_complex (pay_f prec emax Hp He N2 h2) sm2 safmn2 fuel f2 g2).
Proof. intros. apply (@C86_setup_givens_rotation_complex (pay_f prec emax Hp He N1 h1) (pay_f prec emax Hp He N2 h2) same_number); auto. apply same_float; auto. Qed.
Print Assumptions C94_setup_givens_rotation_complex.

(** * Concrete case: double, NaNs with payloads 5 and 9 in the data, operations that return NaNs with payload 1 and 2 *)
Notation fl64 := (Binary.binary_float 53 1024).
Definition nan64 (s : bool) (p : positive) (H : nan_pl 53 p = true) : fl64 := Binary.B754_nan 53 1024 s p H.
Definition some64 (s : bool) (p : positive) (H : nan_pl 53 p = true) : { x : fl64 | Binary.is_nan 53 1024 x = true } := exist _ (nan64 s p H) eq_refl.
Definition choice64 (s : bool) (p : positive) (H : nan_pl 53 p = true) : nan_choice 53 1024 :=
  NanChoice 53 1024 (fun _ _ => some64 s p H) (fun _ _ => some64 s p H) (fun _ _ => some64 s p H) (fun _ _ => some64 s p H)
    (fun _ => some64 s p H) (fun _ => some64 s p H) (fun _ => some64 s p H).
Definition PA : ops := pay_ops 53 1024 prec53 emax1024 (choice64 false 1 eq_refl).
Definition PB : ops := pay_ops 53 1024 prec53 emax1024 (choice64 true 2 eq_refl).
Definition one64 : fl64 := Binary.Bone 53 1024 prec53 emax1024.
(** z = y + A x with A = (NaN 1; 1 1), x = (1, 1), y = (1, 1): in both runs z is (a NaN, 3) *)
Example C94_case :
  exists ma mb, run (@matrix_vector_product_upd PA (row_major 0 2 2) (vec_at 4 2) (vec_at 6 2) (vec_at 6 2))
      (mem_of [nan64 true 5 eq_refl; one64; one64; one64; one64; one64; one64; one64]) = Ok tt ma /\
    run (@matrix_vector_product_upd PB (row_major 0 2 2) (vec_at 4 2) (vec_at 6 2) (vec_at 6 2))
      (mem_of [nan64 false 9 eq_refl; one64; one64; one64; one64; one64; one64; one64]) = Ok tt mb /\
    @mem_related PA PB same_number ma mb /\
    option_map (Binary.is_nan 53 1024) (ma 6) = Some true /\ option_map (Binary.B2FF 53 1024) (ma 7) = Some (F754_finite false 6755399441055744 (-51)).
Proof.
  assert (H : @related_runs PA PB _ _ same_number eq (@matrix_vector_product_upd PA (row_major 0 2 2) (vec_at 4 2) (vec_at 6 2) (vec_at 6 2))
    (@matrix_vector_product_upd PB (row_major 0 2 2) (vec_at 4 2) (vec_at 6 2) (vec_at 6 2))).
  { apply (C94_matrix_vector_product_upd 53 1024 prec53 emax1024 (choice64 false 1 eq_refl) (choice64 true 2 eq_refl)); repeat split. }
  specialize (H (mem_of [nan64 true 5 eq_refl; one64; one64; one64; one64; one64; one64; one64])
    (mem_of [nan64 false 9 eq_refl; one64; one64; one64; one64; one64; one64; one64])).
  assert (K : @mem_related PA PB same_number (mem_of [nan64 true 5 eq_refl; one64; one64; one64; one64; one64; one64; one64])
    (mem_of [nan64 false 9 eq_refl; one64; one64; one64; one64; one64; one64; one64])).
  { intros a. do 8 (destruct a as [|a]; [first [left; reflexivity | right; split; reflexivity]|]). destruct a; exact I. }
  specialize (H K). clear K.
  set (p1 := @matrix_vector_product_upd PA (row_major 0 2 2) (vec_at 4 2) (vec_at 6 2) (vec_at 6 2)) in *.
  set (p2 := @matrix_vector_product_upd PB (row_major 0 2 2) (vec_at 4 2) (vec_at 6 2) (vec_at 6 2)) in *.
  assert (T : match run p1 (mem_of [nan64 true 5 eq_refl; one64; one64; one64; one64; one64; one64; one64]) with Ok tt m =>
     option_map (Binary.is_nan 53 1024) (m 6) = Some true /\ option_map (Binary.B2FF 53 1024) (m 7) = Some (F754_finite false 6755399441055744 (-51)) | _ => False end).
  { vm_compute. split; reflexivity. }
  destruct (run p1 _) as [[] ma|]; [|destruct T]. destruct (run p2 _) as [[] mb|]; [|destruct H]. destruct H as [_ H].
  exists ma, mb. repeat split; tauto.
Qed.

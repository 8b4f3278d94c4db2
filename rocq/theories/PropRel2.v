(** C86, continued: parallel reductions of the Kokkos back end and the set-up of rotations. *)
From Coq Require Import List Arith NArith ZArith Bool Lia Permutation.
From Verif Require Import Mem Scalar View Spec Norm Givens Par KK Red KKNorm SpecRel SpecRel2 PfRel PfRel3 Inst PropRel.
Import ListNotations.
Set Implicit Arguments.

(** * Parallel reductions *)
Theorem C86_kk_dot : forall (O1 O2 : ops) (R : O1 -> O2 -> Prop) (x1 : vec O1) (x2 : vec O2) (y1 : vec O1) (y2 : vec O2) (init1 : O1) (init2 : O2),
  respects R -> vec_related R x1 x2 -> vec_related R y1 y2 -> R init1 init2 ->
  related_red R R (kk_dot x1 y1 init1) (kk_dot x2 y2 init2).
Proof. intros. apply rel_kk_dot with (R := R); auto. Qed.
Print Assumptions C86_kk_dot.

Theorem C86_kk_vector_abs_sum : forall (O1 O2 : ops) (R : O1 -> O2 -> Prop) (F1 F2 : rops) (S : F1 -> F2 -> Prop) (M1 : mags O1 F1) (M2 : mags O2 F2) (x1 : vec O1) (x2 : vec O2) (init1 : F1) (init2 : F2),
  respects R -> respects_mag S -> mags_related R S M1 M2 -> vec_related R x1 x2 -> S init1 init2 ->
  related_red R S (kk_vector_abs_sum M1 x1 init1) (kk_vector_abs_sum M2 x2 init2).
Proof. intros. apply rel_kk_vector_abs_sum with (R := R); auto. Qed.
Print Assumptions C86_kk_vector_abs_sum.

Theorem C86_kk_vector_norm2 : forall (O1 O2 : ops) (R : O1 -> O2 -> Prop) (F1 F2 : rops) (S : F1 -> F2 -> Prop) (M1 : mags O1 F1) (M2 : mags O2 F2) (x1 : vec O1) (x2 : vec O2) (init1 : F1) (init2 : F2),
  respects R -> respects_mag S -> mags_related R S M1 M2 -> vec_related R x1 x2 -> S init1 init2 ->
  related_red R S (kk_vector_norm2 M1 x1 init1) (kk_vector_norm2 M2 x2 init2).
Proof. intros. apply rel_kk_vector_norm2 with (R := R); auto. Qed.
Print Assumptions C86_kk_vector_norm2.

Theorem C86_kk_vector_sum_of_squares : forall (O1 O2 : ops) (R : O1 -> O2 -> Prop) (F1 F2 : rops) (S : F1 -> F2 -> Prop) (M1 : mags O1 F1) (M2 : mags O2 F2) (lo1 : F1) (lo2 : F2) (x1 : vec O1) (x2 : vec O2) (init1 : @sum_of_squares_result F1) (init2 : @sum_of_squares_result F2),
  respects R -> respects_mag S -> mags_related R S M1 M2 -> S lo1 lo2 -> vec_related R x1 x2 -> ssq_related S init1 init2 ->
  related_red R (ssq_related S) (kk_vector_sum_of_squares M1 lo1 x1 init1) (kk_vector_sum_of_squares M2 lo2 x2 init2).
Proof. intros. apply rel_kk_vector_sum_of_squares with (R := R); auto. Qed.
Print Assumptions C86_kk_vector_sum_of_squares.

Theorem C86_kk_matrix_frob_norm : forall (O1 O2 : ops) (R : O1 -> O2 -> Prop) (F1 F2 : rops) (S : F1 -> F2 -> Prop) (M1 : mags O1 F1) (M2 : mags O2 F2) (lo1 : F1) (lo2 : F2) (B1 : mat O1) (B2 : mat O2) (init1 : F1) (init2 : F2),
  respects R -> respects_mag S -> mags_related R S M1 M2 -> S lo1 lo2 -> mat_related R B1 B2 -> S init1 init2 ->
  related_red R S (kk_matrix_frob_norm M1 lo1 B1 init1) (kk_matrix_frob_norm M2 lo2 B2 init2).
Proof. intros. apply rel_kk_matrix_frob_norm with (R := R); auto. Qed.
Print Assumptions C86_kk_matrix_frob_norm.

Theorem C86_kk_matrix_inf_norm : forall (O1 O2 : ops) (R : O1 -> O2 -> Prop) (F1 F2 : rops) (S : F1 -> F2 -> Prop) (M1 : mags O1 F1) (M2 : mags O2 F2) (lo1 : F1) (lo2 : F2) (B1 : mat O1) (B2 : mat O2) (init1 : F1) (init2 : F2),
  respects R -> respects_mag S -> mags_related R S M1 M2 -> S lo1 lo2 -> mat_related R B1 B2 -> S init1 init2 ->
  related_red R S (kk_matrix_inf_norm M1 lo1 B1 init1) (kk_matrix_inf_norm M2 lo2 B2 init2).
Proof. intros. apply rel_kk_matrix_inf_norm with (R := R); auto. Qed.
Print Assumptions C86_kk_matrix_inf_norm.

Theorem C86_kk_matrix_one_norm : forall (O1 O2 : ops) (R : O1 -> O2 -> Prop) (F1 F2 : rops) (S : F1 -> F2 -> Prop) (M1 : mags O1 F1) (M2 : mags O2 F2) (lo1 : F1) (lo2 : F2) (B1 : mat O1) (B2 : mat O2) (init1 : F1) (init2 : F2),
  respects R -> respects_mag S -> mags_related R S M1 M2 -> S lo1 lo2 -> mat_related R B1 B2 -> S init1 init2 ->
  related_red R S (kk_matrix_one_norm M1 lo1 B1 init1) (kk_matrix_one_norm M2 lo2 B2 init2).
Proof. intros. apply rel_kk_matrix_one_norm with (R := R); auto. Qed.
Print Assumptions C86_kk_matrix_one_norm.

(** * Set-up of rotations *)
Theorem C86_setup_givens_rotation : forall (F1 F2 : fops) (S : F1 -> F2 -> Prop) (safmn1 : F1) (safmn2 : F2) fuel (f1 g1 : F1) (f2 g2 : F2),
  respects_float S -> S safmn1 safmn2 -> S f1 f2 -> S g1 g2 ->
  option_related (pair_related (pair_related S S) S) (setup_givens_rotation safmn1 fuel f1 g1) (setup_givens_rotation safmn2 fuel f2 g2).
Proof. intros. apply rel_setup_givens_rotation; auto. Qed.
Print Assumptions C86_setup_givens_rotation.
Theorem C86_setup_givens_rotation_complex : forall (F1 F2 : fops) (S : F1 -> F2 -> Prop) (safmin1 safmn1 : F1) (safmin2 safmn2 : F2) fuel (f1 g1 : F1 * F1) (f2 g2 : F2 * F2),
  respects_float S -> S safmin1 safmin2 -> S safmn1 safmn2 -> pair_related S S f1 f2 -> pair_related S S g1 g2 ->
  option_related (pair_related (pair_related S (pair_related S S)) (pair_related S S))
    (setup_givens_rotation_complex safmin1 safmn1 fuel f1 g1) (setup_givens_rotation_complex safmin2 safmn2 fuel f2 g2).
Proof. intros. apply rel_setup_givens_rotation_complex; auto. Qed.
Print Assumptions C86_setup_givens_rotation_complex.

(** The parallel dot product of reduced integers can return exactly the reductions of what that of the integers can return. *)
Example C86_reduction_kk_case : forall m1 m2 r2, mem_related to_u8 m1 m2 ->
  red_result m2 r2 (@kk_dot u8ops (vec_at 0 3) (vec_at 3 3) 7%Z) ->
  exists r1, red_result m1 r1 (@kk_dot zops (vec_at 0 3) (vec_at 3 3) 263%Z) /\ r2 = (r1 mod 256)%Z.
Proof.
  intros m1 m2 r2 Hm Hr.
  assert (H : related_red to_u8 to_u8 (@kk_dot zops (vec_at 0 3) (vec_at 3 3) 263%Z) (@kk_dot u8ops (vec_at 0 3) (vec_at 3 3) 7%Z)).
  { apply C86_kk_dot; [exact to_u8_respects|repeat split|repeat split|reflexivity]. }
  destruct H as (_ & _ & H). destruct (H _ _ Hm) as [_ K]. exact (K r2 Hr).
Qed.

(** Properties C52 and C57: Kokkos reductions, dot, copy and swap_elements under every execution.

    [red_returns p m Q]: whatever the assignment of indices to threads, the order within a thread and the
    shape of the joins, no read fails and the value returned satisfies Q.  [lowest] is the identity of the
    Kokkos::Max reducer. *)
From Coq Require Import List Arith Lia Bool ZArith Reals Lra Permutation Relations.
From Flocq Require Import Core.Core IEEE754.BinarySingleNaN.
From Verif Require Import Mem Scalar View Spec Wp Norm SpecR PfNorm PfFrob Ieee Inst Blas1 PfBlas1 Par SpecK KK PfKK PfKK5 PfKK6 PfKK7 Red SpecRed KKNorm PfRed PropNorm PropKK.
Import ListNotations.
Local Open Scope R_scope.

(** * Executions *)
(** A reduction does return, and every execution returns a value that satisfies the postcondition. *)
Theorem C52_completes : forall T A X (p : red T A X) m (Q : X -> Prop), red_returns p m Q ->
  (exists r, red_result m r p) /\ forall r, red_result m r p -> Q r.
Proof. intros T A X p m Q H. split; [eapply red_exists; eauto|intros; eapply red_sound; eauto]. Qed.
Print Assumptions C52_completes.

(** * C52 *)
Theorem C52_abs_sum_value : forall (O : ops) (dv : R -> R -> R) (sq : R -> R) (M : mags O (exact dv sq)) (m : mem O) x f (init : R), plain_v x -> vec_holds m x f ->
  red_returns (kk_vector_abs_sum M x init) m (fun r => r = init + rsum (vext x) (fun i => mag M (f i))).
Proof. exact (@kk_abs_sum_ok). Qed.
Print Assumptions C52_abs_sum_value.

(** Missing: complex elements, for which the values differ (see the refutation). *)
Theorem C52_abs_sum_same_partial : forall (O : ops) (dv : R -> R -> R) (sq : R -> R) (M : mags O (exact dv sq)) (m : mem O) x f (init : R), arithmetic M = true -> plain_v x -> vec_holds m x f ->
  red_same_as (kk_vector_abs_sum M x init) (vector_abs_sum M x init) m.
Proof. exact (@kk_abs_sum_same). Qed.
Print Assumptions C52_abs_sum_same_partial.

(** Complex elements: 3-4i counts 5 in the Kokkos algorithm, 7 in the inline one. *)
Theorem C52_abs_sum_complex_refuted : exists (m : mem cplx_ops) x f,
  plain_v x /\ vec_holds m x f /\
  ~ red_same_as (kk_vector_abs_sum cplx_mags x (0 : exact Rdiv sqrt)) (vector_abs_sum cplx_mags x (0 : exact Rdiv sqrt)) m.
Proof.
  exists (mem_of [(3, -4)]), (vec_at 0 1), (@velt cplx_ops [(3, -4)]).
  assert (P : plain_v (@vec_at cplx_ops 0 1)) by (split; [reflexivity|intros; reflexivity]).
  assert (H : @vec_holds cplx_ops (mem_of [(3, -4)]) (vec_at 0 1) (@velt cplx_ops [(3, -4)])) by concrete.
  split; [exact P|split; [exact H|]].
  eapply red_not; [apply (C52_abs_sum_value _ _ _ cplx_mags _ _ _ 0 P H)|].
  intros r -> (r' & Hr & ->).
  destruct (C11_abs_sum_complex _ _ _ cplx_mags _ _ _ 0 eq_refl H) as (r & Hr' & E).
  assert (K := eq_trans (eq_sym Hr) Hr'). injection K as K. rewrite E in K.
  unfold mag, repart, impart, velt, cmod in K; simpl in K.
  replace (3 * 3 + -4 * -4) with (5 * 5) in K by lra. rewrite sqrt_square in K by lra.
  rewrite (Rabs_right 3), (Rabs_left (-4)) in K by lra. lra.
Qed.
Print Assumptions C52_abs_sum_complex_refuted.

Theorem C52_norm2_value : forall (O : ops) (dv : R -> R -> R) (sq : R -> R) (M : mags O (exact dv sq)) (m : mem O) x f (init : R), exact_sqrt sq -> plain_v x -> vec_holds m x f ->
  0 <= rsum (vext x) (fun i => mag M (f i) * mag M (f i)) + init ->
  red_returns (kk_vector_norm2 M x init) m (fun r => r = sqrt (init + rsum (vext x) (fun i => mag M (f i) * mag M (f i)))).
Proof. exact (@kk_norm2_ok). Qed.
Print Assumptions C52_norm2_value.

(** Missing: init different from 0; the Kokkos algorithm adds it under the square root, the inline one to the root. *)
Theorem C52_norm2_same_partial : forall (O : ops) (dv : R -> R -> R) (sq : R -> R) (M : mags O (exact dv sq)) (m : mem O) x f, exact_div dv -> exact_sqrt sq -> (forall v, 0 <= mag M v) -> plain_v x -> vec_holds m x f ->
  red_same_as (kk_vector_norm2 M x (0 : exact dv sq)) (vector_two_norm M x (0 : exact dv sq)) m.
Proof. exact (@kk_norm2_same). Qed.
Print Assumptions C52_norm2_same_partial.

(** x = [1], init = 1: sqrt 2 instead of 2. *)
Theorem C52_norm2_init_refuted : exists (m : mem real_ops) x f (init : R),
  plain_v x /\ vec_holds m x f /\ 0 < init /\
  ~ red_same_as (kk_vector_norm2 real_mags x (init : exact Rdiv sqrt)) (vector_two_norm real_mags x (init : exact Rdiv sqrt)) m.
Proof.
  exists (mem_of [1]), (vec_at 0 1), (@velt real_ops [1]), 1.
  assert (P : plain_v (@vec_at real_ops 0 1)) by (split; [reflexivity|intros; reflexivity]).
  assert (H : @vec_holds real_ops (mem_of [1]) (vec_at 0 1) (@velt real_ops [1])) by concrete.
  split; [exact P|split; [exact H|split; [lra|]]].
  eapply red_not; [apply (C52_norm2_value _ _ _ real_mags _ _ _ 1 rsqrt_exact P H)|].
  - unfold mag, velt; simpl. rewrite (Rabs_right 1) by lra. lra.
  - intros r -> (r' & Hr & ->).
    destruct (C14_two_norm _ _ _ real_mags _ _ _ 1 rdiv_exact rsqrt_exact rabs_pos H) as (r & Hr' & E).
    assert (K := eq_trans (eq_sym Hr) Hr'). injection K as K. rewrite E in K.
    unfold mag, velt in K; simpl in K. rewrite (Rabs_right 1) in K by lra.
    replace (0 + 1 * 1) with 1 in K by lra. rewrite sqrt_1 in K.
    assert (S2 : sqrt (1 + 1) * sqrt (1 + 1) = 1 + 1) by (apply sqrt_sqrt; lra). nra.
Qed.
Print Assumptions C52_norm2_init_refuted.

Theorem C52_inf_norm_same : forall (O : ops) (dv : R -> R -> R) (sq : R -> R) (M : mags O (exact dv sq)) (m : mem O) A a (init lowest : R), lowest <= 0 -> (forall v, 0 <= mag M v) -> plain_m A -> mat_holds m A a ->
  red_same_as (kk_matrix_inf_norm M lowest A init) (matrix_inf_norm M A init) m.
Proof. exact (@kk_inf_norm_same). Qed.
Print Assumptions C52_inf_norm_same.

(** Missing: matrices with columns but no rows, for which the Kokkos algorithm reads out of range. *)
Theorem C52_one_norm_same_partial : forall (O : ops) (dv : R -> R -> R) (sq : R -> R) (M : mags O (exact dv sq)) (m : mem O) A a (init lowest : R), lowest <= 0 -> (forall v, 0 <= mag M v) -> plain_m A -> mat_holds m A a ->
  (0 < ext0 A)%nat -> red_same_as (kk_matrix_one_norm M lowest A init) (matrix_one_norm M A init) m.
Proof. exact (@kk_one_norm_same). Qed.
Print Assumptions C52_one_norm_same_partial.

Theorem C52_one_norm_no_rows_refuted : exists (m : mem real_ops) A a,
  plain_m A /\ mat_holds m A a /\
  returns (matrix_one_norm real_mags A (0 : exact Rdiv sqrt)) m (fun r => r = 0) /\
  forall (lowest : R) Q, ~ red_returns (kk_matrix_one_norm real_mags (lowest : exact Rdiv sqrt) A (0 : exact Rdiv sqrt)) m Q.
Proof.
  exists (mem_of []), (row_major 0 0 3), (@melt real_ops []). repeat split; auto.
  - concrete.
  - exists 0. split; reflexivity.
  - intros lowest Q. apply kk_one_norm_no_rows; [split; auto|reflexivity|simpl; lia].
Qed.
Print Assumptions C52_one_norm_no_rows_refuted.

(** The Frobenius norm, for init = 0.  Missing: init different from 0 (added under the square root unless the matrix is 1x1), and rounding: see the refutations. *)
Theorem C52_frob_norm_value_partial : forall (O : ops) (dv : R -> R -> R) (sq : R -> R) (M : mags O (exact dv sq)) (m : mem O) A a (lowest : R), lowest <= 0 -> exact_div dv -> exact_sqrt sq -> (forall v, 0 <= mag M v) ->
  plain_m A -> mat_holds m A a ->
  red_returns (kk_matrix_frob_norm M lowest A (0 : exact dv sq)) m (fun r =>
    r = sqrt (rsum (ext0 A) (fun i => rsum (ext1 A) (fun j => mag M (a i j) * mag M (a i j))))).
Proof. exact (@kk_frob_0). Qed.
Print Assumptions C52_frob_norm_value_partial.

(** More than one element, any init: the value really computed. *)
Theorem C52_frob_norm_init : forall (O : ops) (dv : R -> R -> R) (sq : R -> R) (M : mags O (exact dv sq)) (m : mem O) A a (init lowest : R), lowest <= 0 -> exact_div dv -> exact_sqrt sq -> (forall v, 0 <= mag M v) ->
  plain_m A -> mat_holds m A a -> (1 < ext0 A * ext1 A)%nat ->
  0 <= init + rsum (ext0 A) (fun i => rsum (ext1 A) (fun j => mag M (a i j) * mag M (a i j))) ->
  red_returns (kk_matrix_frob_norm M lowest A init) m (fun r =>
    r = sqrt (init + rsum (ext0 A) (fun i => rsum (ext1 A) (fun j => mag M (a i j) * mag M (a i j))))).
Proof. exact (@kk_frob_ok). Qed.
Print Assumptions C52_frob_norm_init.

(** A = [2 1]: Kokkos returns sqrt 5, the inline algorithm does not. *)
Theorem C52_frob_norm_same_refuted : exists (m : mem real_ops) A a, plain_m A /\ mat_holds m A a /\
  forall lowest : R, lowest <= 0 ->
  ~ red_same_as (kk_matrix_frob_norm real_mags (lowest : exact Rdiv sqrt) A (0 : exact Rdiv sqrt))
      (matrix_frob_norm real_mags A (0 : exact Rdiv sqrt)) m.
Proof.
  assert (P : plain_m (@row_major real_ops 0 1 2)) by (split; auto).
  exists (mem_of [2; 1]), (row_major 0 1 2), (@melt real_ops [[2; 1]]).
  assert (H : @mat_holds real_ops (mem_of [2; 1]) (@row_major real_ops 0 1 2) (@melt real_ops [[2; 1]])) by concrete.
  split; [exact P|split; [exact H|]]. intros lowest Hl.
  eapply red_not; [apply (C52_frob_norm_value_partial _ _ _ real_mags _ _ _ lowest Hl rdiv_exact rsqrt_exact rabs_pos P H)|].
  intros r -> (r' & Hr & ->).
  assert (G : returns (matrix_frob_norm real_mags (@row_major real_ops 0 1 2) (0 : exact Rdiv sqrt)) (mem_of [2; 1]) (fun r =>
    r <> sqrt (rsum 1 (fun i => rsum 2 (fun j => mag real_mags (@melt real_ops [[2; 1]] i j) * mag real_mags (@melt real_ops [[2; 1]] i j)))))).
  { eapply returns_conseq; [exact frob_2_1|]. intros r K E. apply K. rewrite E. symmetry. apply Rplus_0_l. }
  destruct G as (r & Hr' & N). assert (K := eq_trans (eq_sym Hr) Hr'). injection K as K. apply N. rewrite <- K. reflexivity.
Qed.
Print Assumptions C52_frob_norm_same_refuted.

(** Matrices with layout_transpose: the norms are computed on the matrix before transposition.  The Frobenius norm
    does not notice; the one norm and the infinity norm are exchanged. *)
Theorem C52_frob_norm_transposed_partial : forall (O : ops) (dv : R -> R -> R) (sq : R -> R) (M : mags O (exact dv sq)) (m : mem O) A l a (lowest : R), lowest <= 0 -> exact_div dv -> exact_sqrt sq -> (forall v, 0 <= mag M v) ->
  mlay A = LTrans l -> l = LLeft \/ l = LRight -> macc A = ADefault -> mat_holds m A a ->
  red_returns (kk_matrix_frob_norm M lowest A (0 : exact dv sq)) m (fun r =>
    r = sqrt (rsum (ext0 A) (fun i => rsum (ext1 A) (fun j => mag M (a i j) * mag M (a i j))))).
Proof. exact (@kk_frob_trans). Qed.
Print Assumptions C52_frob_norm_transposed_partial.

Theorem C52_one_norm_transposed_is_inf_norm : forall (O : ops) (dv : R -> R -> R) (sq : R -> R) (M : mags O (exact dv sq)) (m : mem O) A l a (init lowest : R), lowest <= 0 -> (forall v, 0 <= mag M v) ->
  mlay A = LTrans l -> l = LLeft \/ l = LRight -> macc A = ADefault -> mat_holds m A a -> (0 < ext0 A)%nat -> (0 < ext1 A)%nat ->
  red_returns (kk_matrix_one_norm M lowest A init) m (fun r =>
    r = init + rmax0 (ext0 A) (fun i => rsum (ext1 A) (fun j => mag M (a i j)))).
Proof. exact (@kk_one_norm_trans). Qed.
Print Assumptions C52_one_norm_transposed_is_inf_norm.

Theorem C52_inf_norm_transposed_is_one_norm : forall (O : ops) (dv : R -> R -> R) (sq : R -> R) (M : mags O (exact dv sq)) (m : mem O) A l a (init lowest : R), lowest <= 0 -> (forall v, 0 <= mag M v) ->
  mlay A = LTrans l -> l = LLeft \/ l = LRight -> macc A = ADefault -> mat_holds m A a -> (0 < ext0 A)%nat ->
  red_returns (kk_matrix_inf_norm M lowest A init) m (fun r =>
    r = init + rmax0 (ext1 A) (fun j => rsum (ext0 A) (fun i => mag M (a i j)))).
Proof. exact (@kk_inf_norm_trans). Qed.
Print Assumptions C52_inf_norm_transposed_is_one_norm.

(** A is the 3x1 matrix with elements 1, 2, 3: one norm 6, infinity norm 3. *)
Theorem C52_transposed_norms_refuted : exists (m : mem real_ops) A a,
  mlay A = LTrans LRight /\ macc A = ADefault /\ mat_holds m A a /\
  forall lowest : R, lowest <= 0 ->
  ~ red_same_as (kk_matrix_one_norm real_mags (lowest : exact Rdiv sqrt) A (0 : exact Rdiv sqrt))
      (matrix_one_norm real_mags A (0 : exact Rdiv sqrt)) m /\
  ~ red_same_as (kk_matrix_inf_norm real_mags (lowest : exact Rdiv sqrt) A (0 : exact Rdiv sqrt))
      (matrix_inf_norm real_mags A (0 : exact Rdiv sqrt)) m.
Proof.
  set (A := @Mat real_ops 0 3 1 (LTrans LRight) ADefault). set (a := @melt real_ops [[1]; [2]; [3]]).
  exists (mem_of [1; 2; 3]), A, a.
  assert (H : @mat_holds real_ops (mem_of [1; 2; 3]) A a) by concrete.
  assert (E1 : rmax0 3 (fun i => rsum 1 (fun j => mag real_mags (a i j))) = 3).
  { unfold a, mag, melt; simpl. rewrite (Rabs_right 1), (Rabs_right 2), (Rabs_right 3) by lra.
    rewrite (Rmax_right 0), (Rmax_right (0 + 1)), Rmax_right by lra. lra. }
  assert (E2 : rmax0 1 (fun j => rsum 3 (fun i => mag real_mags (a i j))) = 6).
  { unfold a, mag, melt; simpl. rewrite (Rabs_right 1), (Rabs_right 2), (Rabs_right 3) by lra. rewrite Rmax_right by lra. lra. }
  split; [reflexivity|split; [reflexivity|split; [exact H|]]]. intros lowest Hl. split.
  - eapply red_not; [apply (C52_one_norm_transposed_is_inf_norm _ _ _ real_mags _ A LRight a 0 lowest Hl rabs_pos); auto; simpl; lia|].
    intros r -> (r' & Hr & ->). destruct (C16_one_norm _ _ _ real_mags _ _ _ 0 rabs_pos H) as (r & Hr' & E).
    assert (K := eq_trans (eq_sym Hr) Hr'). injection K as K. rewrite E in K. assert (K' : 0 + rmax0 3 (fun i => rsum 1 (fun j => mag real_mags (a i j))) = 0 + rmax0 1 (fun j => rsum 3 (fun i => mag real_mags (a i j)))) by exact K.
    rewrite E1, E2 in K'. lra.
  - eapply red_not; [apply (C52_inf_norm_transposed_is_one_norm _ _ _ real_mags _ A LRight a 0 lowest Hl rabs_pos); auto; simpl; lia|].
    intros r -> (r' & Hr & ->). destruct (C16_inf_norm _ _ _ real_mags _ _ _ 0 rabs_pos H) as (r & Hr' & E).
    assert (K := eq_trans (eq_sym Hr) Hr'). injection K as K. rewrite E in K. assert (K' : 0 + rmax0 1 (fun j => rsum 3 (fun i => mag real_mags (a i j))) = 0 + rmax0 3 (fun i => rsum 1 (fun j => mag real_mags (a i j)))) by exact K.
    rewrite E1, E2 in K'. lra.
Qed.
Print Assumptions C52_transposed_norms_refuted.
Example C52_transposed_case :
  red_returns (kk_matrix_frob_norm real_mags (-10 : exact Rdiv sqrt) (@Mat real_ops 0 2 1 (LTrans LRight) ADefault) (0 : exact Rdiv sqrt))
    (mem_of [-3; 4]) (fun r => r = 5).
Proof.
  assert (Q : forall v : R, Rabs v * Rabs v = v * v) by (intros v; unfold Rabs; destruct Rcase_abs; ring).
  eapply red_mono; [apply C52_frob_norm_transposed_partial with (l := LRight) (a := @melt real_ops [[-3]; [4]]);
    [lra|exact rdiv_exact|exact rsqrt_exact|exact rabs_pos|reflexivity|auto|reflexivity|concrete]|].
  intros r ->. unfold mag, melt; simpl. rewrite !Q. replace (0 + (0 + -3 * -3) + (0 + 4 * 4)) with (5 * 5) by lra. apply sqrt_square; lra.
Qed.

(** Elements of type double; the magnitude type is double too. *)
Definition dops : ops := Ops (B754_zero false : binary64) Bone (Bplus mode_NE) (Bminus mode_NE) (Bmult mode_NE) (Bdiv mode_NE)
  (fun x => x) (fun x => x).
Definition dmags : mags dops (ieee_r 53 1024 _ _) := @Mags dops (ieee_r 53 1024 _ _) true (@Babs 53 1024) (fun x => x) (fun _ => B754_zero false).
(** numeric_limits<double>::lowest() *)
Definition dlowest : binary64 := Bopp (Bpred (B754_infinity false)).
(** In binary64 the Kokkos Frobenius norm of a zero matrix with more than one element is NaN (0/0); the
    inline algorithm returns 0. *)
Theorem C52_frob_norm_zero_matrix_refuted : exists (m : mem dops) A,
  plain_m A /\ mat_holds m A (fun _ _ => zero) /\
  returns (matrix_frob_norm dmags A (B754_zero false : ieee_r 53 1024 _ _)) m (fun r => r = B754_zero false) /\
  (exists r, red_result m r (kk_matrix_frob_norm dmags (dlowest : ieee_r 53 1024 _ _) A (B754_zero false : ieee_r 53 1024 _ _)) /\ is_nan r = true) /\
  ~ red_returns (kk_matrix_frob_norm dmags (dlowest : ieee_r 53 1024 _ _) A (B754_zero false : ieee_r 53 1024 _ _)) m (fun r => is_nan r = false).
Proof.
  exists (mem_of [zero; zero]), (row_major 0 1 2).
  assert (N : exists r, red_result (mem_of [zero; zero]) r (kk_matrix_frob_norm dmags (dlowest : ieee_r 53 1024 _ _) (row_major 0 1 2)
     (B754_zero false : ieee_r 53 1024 _ _)) /\ is_nan r = true).
  { eexists. split.
    - unfold kk_matrix_frob_norm. cbn [ext0 ext1 row_major Nat.eqb orb andb rview_m mlay].
      eapply red_reduce with (l := [0; 1]%nat); [apply Permutation_refl| |].
      + apply (partial_step (l := [0%nat])) with (x := B754_zero false) (m' := mem_of [zero; zero]).
        * apply (partial_step (l := [])) with (x := dlowest) (m' := mem_of [zero; zero]); [constructor|vm_compute; reflexivity].
        * vm_compute; reflexivity.
      + eapply red_reduce with (l := [0; 1]%nat); [apply Permutation_refl| |].
        * apply (partial_step (l := [0%nat])) with (x := B754_nan) (m' := mem_of [zero; zero]).
          { apply (partial_step (l := [])) with (x := B754_zero false) (m' := mem_of [zero; zero]); [constructor|vm_compute; reflexivity]. }
          { vm_compute; reflexivity. }
        * constructor.
    - vm_compute. reflexivity. }
  split; [split; auto|split; [concrete|split; [|split; [exact N|]]]].
  - eexists. split; [vm_compute; reflexivity|reflexivity].
  - intros K. destruct N as (r & Hr & E). assert (F := red_sound _ K Hr). cbv beta in F. congruence.
Qed.
Print Assumptions C52_frob_norm_zero_matrix_refuted.

(** Missing: a scaling factor of init larger than every |x_i|, and vectors without nonzero elements. *)
Theorem C52_sum_of_squares_partial : forall (O : ops) (dv : R -> R -> R) (sq : R -> R) (M : mags O (exact dv sq)) (m : mem O) x f (init : @sum_of_squares_result (exact dv sq)) (lowest : R), lowest <= 0 -> exact_div dv ->
  (forall v, 0 <= mag M v) -> plain_v x -> vec_holds m x f ->
  0 <= scaling_factor init -> 0 < rmax0 (vext x) (fun i => mag M (f i)) ->
  (scaling_factor init <= rmax0 (vext x) (fun i => mag M (f i)) \/ (scaled_sum_of_squares init : R) = 0) ->
  red_returns (kk_vector_sum_of_squares M lowest x init) m (fun r =>
    scaling_factor r = Rmax (rmax0 (vext x) (fun i => mag M (f i))) (scaling_factor init) /\
    scaling_factor r * scaling_factor r * scaled_sum_of_squares r =
      scaling_factor init * scaling_factor init * scaled_sum_of_squares init
      + rsum (vext x) (fun i => mag M (f i) * mag M (f i))).
Proof. exact (@kk_ssq_same). Qed.
Print Assumptions C52_sum_of_squares_partial.

(** x = [1], init = (2, 1): s^2 q is 17 instead of 5. *)
Theorem C52_sum_of_squares_refuted : exists (m : mem real_ops) x f (init : @sum_of_squares_result (exact Rdiv sqrt)),
  plain_v x /\ vec_holds m x f /\ 0 < scaling_factor init /\
  forall lowest : R, lowest <= 0 ->
  ~ red_returns (kk_vector_sum_of_squares real_mags (lowest : exact Rdiv sqrt) x init) m (fun r =>
      scaling_factor r * scaling_factor r * scaled_sum_of_squares r =
      scaling_factor init * scaling_factor init * scaled_sum_of_squares init
      + rsum (vext x) (fun i => mag real_mags (f i) * mag real_mags (f i))).
Proof.
  exists (mem_of [1]), (vec_at 0 1), (@velt real_ops [1]), (@Ssq (exact Rdiv sqrt) 2 1).
  assert (P : plain_v (@vec_at real_ops 0 1)) by (split; [reflexivity|intros; reflexivity]).
  assert (H : @vec_holds real_ops (mem_of [1]) (vec_at 0 1) (@velt real_ops [1])) by concrete.
  split; [exact P|split; [exact H|split; [simpl; lra|]]]. intros lowest Hl.
  assert (E : rmax0 1 (fun i => mag real_mags (@velt real_ops [1] i)) = 1).
  { unfold mag, velt; simpl. rewrite (Rabs_right 1) by lra. apply Rmax_right; lra. }
  eapply red_not; [apply (@kk_ssq_ok _ _ _ real_mags _ _ _ (@Ssq (exact Rdiv sqrt) 2 1) lowest Hl rdiv_exact rabs_pos P H)|].
  - simpl vext. rewrite E. lra.
  - intros r [E1 E2] K. simpl vext in *. rewrite E in E2.
    assert (K' := eq_trans (eq_sym K) E2). simpl in K'. unfold mag, velt in K'; simpl in K'.
    rewrite (Rabs_right 1) in K' by lra. rewrite (Rmax_right 1 2) in K' by lra. lra.
Qed.
Print Assumptions C52_sum_of_squares_refuted.

(** The empty vector: the accumulated init = (2, 1) is changed whenever the reducer's identity exceeds 2
    in magnitude (e.g. for lowest = -10, s^2 q is 16/100). *)
Theorem C52_sum_of_squares_empty_refuted : exists (m : mem real_ops) x (init : @sum_of_squares_result (exact Rdiv sqrt)),
  vext x = 0%nat /\ 0 < scaling_factor init /\
  forall lowest : R, lowest < -2 ->
  ~ red_returns (kk_vector_sum_of_squares real_mags (lowest : exact Rdiv sqrt) x init) m (fun r =>
      scaling_factor r * scaling_factor r * scaled_sum_of_squares r =
      scaling_factor init * scaling_factor init * scaled_sum_of_squares init).
Proof.
  exists (mem_of []), (vec_at 0 0), (@Ssq (exact Rdiv sqrt) 2 1). split; [reflexivity|split; [simpl; lra|]]. intros lowest Hl.
  eapply red_not; [apply (@kk_ssq_empty _ _ _ real_mags _ _ (@Ssq (exact Rdiv sqrt) 2 1) lowest)|]; [lra|reflexivity|simpl; lra|].
  intros r [E1 E2] K. rewrite E1, E2 in K. simpl in K.
  assert (L : 4 < lowest * lowest) by nra.
  assert (4 = 16 / (lowest * lowest)) by lra.
  assert (16 / (lowest * lowest) * (lowest * lowest) = 16) by (field; nra).
  nra.
Qed.
Print Assumptions C52_sum_of_squares_empty_refuted.

Example C52_case :
  red_returns (kk_vector_abs_sum real_mags (vec_at 0 3) (10 : exact Rdiv sqrt)) (mem_of [-3; 4; -1/2]) (fun r => r = 17.5) /\
  red_returns (kk_vector_norm2 real_mags (vec_at 0 2) (0 : exact Rdiv sqrt)) (mem_of [-3; 4]) (fun r => r = 5) /\
  red_same_as (kk_matrix_inf_norm real_mags (-10 : exact Rdiv sqrt) (row_major 0 2 2) (1 : exact Rdiv sqrt))
    (matrix_inf_norm real_mags (row_major 0 2 2) (1 : exact Rdiv sqrt)) (mem_of [1; -2; 3; 4]) /\
  red_same_as (kk_matrix_one_norm real_mags (-10 : exact Rdiv sqrt) (row_major 0 2 2) (1 : exact Rdiv sqrt))
    (matrix_one_norm real_mags (row_major 0 2 2) (1 : exact Rdiv sqrt)) (mem_of [1; -2; 3; 4]) /\
  red_returns (kk_matrix_frob_norm real_mags (-10 : exact Rdiv sqrt) (row_major 0 1 2) (0 : exact Rdiv sqrt)) (mem_of [-3; 4]) (fun r => r = 5).
Proof.
  assert (P : forall n, plain_v (@vec_at real_ops 0 n)) by (split; [reflexivity|intros; reflexivity]).
  assert (PM : forall r c, plain_m (@row_major real_ops 0 r c)) by (split; auto).
  assert (S5 : sqrt (0 + -3 * -3 + 4 * 4) = 5).
  { replace (0 + -3 * -3 + 4 * 4) with (5 * 5) by lra. apply sqrt_square; lra. }
  assert (Q : forall v : R, Rabs v * Rabs v = v * v) by (intros v; unfold Rabs; destruct Rcase_abs; ring).
  split; [|split; [|split; [|split]]].
  - eapply red_mono; [apply C52_abs_sum_value with (f := @velt real_ops [-3; 4; -1/2]); [apply P|concrete]|].
    intros r ->. unfold mag, velt; simpl. rewrite (Rabs_left (-3)), (Rabs_right 4), (Rabs_left (-1/2)); lra.
  - eapply red_mono; [apply C52_norm2_value with (f := @velt real_ops [-3; 4]); [exact rsqrt_exact|apply P|concrete|]|].
    + unfold mag, velt; simpl. rewrite !Q. lra.
    + intros r ->. unfold mag, velt; simpl. rewrite !Q. rewrite Rplus_0_l. exact S5.
  - apply C52_inf_norm_same with (a := @melt real_ops [[1; -2]; [3; 4]]); [lra|exact rabs_pos|apply PM|concrete].
  - apply C52_one_norm_same_partial with (a := @melt real_ops [[1; -2]; [3; 4]]); [lra|exact rabs_pos|apply PM|concrete|simpl; lia].
  - eapply red_mono; [apply C52_frob_norm_value_partial with (a := @melt real_ops [[-3; 4]]);
      [lra|exact rdiv_exact|exact rsqrt_exact|exact rabs_pos|apply PM|concrete]|].
    intros r ->. unfold mag, melt; simpl. rewrite !Q, Rplus_0_l. exact S5.
Qed.
Example C52_sum_of_squares_case :
  red_returns (kk_vector_sum_of_squares real_mags (-10 : exact Rdiv sqrt) (vec_at 0 2) (@Ssq (exact Rdiv sqrt) 2 3)) (mem_of [-3; 4])
    (fun r => scaling_factor r = 4 /\ scaling_factor r * scaling_factor r * scaled_sum_of_squares r = 37).
Proof.
  assert (E : rmax0 2 (fun i => mag real_mags (@velt real_ops [-3; 4] i)) = 4).
  { unfold mag, velt; simpl. rewrite (Rabs_left (-3)), (Rabs_right 4) by lra. rewrite (Rmax_right 0) by lra. apply Rmax_right; lra. }
  eapply red_mono; [apply C52_sum_of_squares_partial with (f := @velt real_ops [-3; 4]); [lra|exact rdiv_exact|exact rabs_pos| | | | |]|].
  - split; [reflexivity|intros; reflexivity].
  - concrete.
  - simpl; lra.
  - simpl vext. rewrite E. lra.
  - left. simpl vext. rewrite E. simpl; lra.
  - intros r [E1 E2]. simpl vext in *. rewrite E in E1. split; [rewrite E1; apply Rmax_left; simpl; lra|].
    rewrite E2. unfold mag, velt; simpl. rewrite (Rabs_left (-3)), (Rabs_right 4) by lra. lra.
Qed.
Local Close Scope R_scope.
Local Open Scope nat_scope.

(** * C57 *)
Theorem C57_dot : forall (O : ops), add_laws O -> forall (m : mem O) x y f g (init : O), plain_v x -> plain_v y ->
  vec_holds m x f -> vec_holds m y g -> vext x = vext y ->
  red_same_as (kk_dot x y init) (dot x y init) m.
Proof. exact (@kk_dot_same). Qed.
Print Assumptions C57_dot.

(** Vectors of different length: exception. *)
Theorem C57_dot_mismatch : forall (O : ops) (x y : vec O) init, vext x <> vext y -> kk_dot x y init = RThrow.
Proof. exact (@kk_dot_mismatch). Qed.
Print Assumptions C57_dot_mismatch.

(** Matrices whose views have different layouts (for equal layouts Kokkos::deep_copy is called). *)
Theorem C57_copy : forall (O : ops) (m : mem O) x y f, ext0 x = ext0 y -> ext1 x = ext1 y -> plain_m x -> plain_m y ->
  mat_holds m x f -> allocated m (mcells y) -> disjoint (mcells x) (mcells y) ->
  par_same_as (kk_copy_2 x y) (copy_2 x y) m.
Proof. exact (@kk_copy_2_same). Qed.
Print Assumptions C57_copy.

Theorem C57_swap_vectors : forall (O : ops) (m : mem O) x y f g, vext x = vext y -> plain_v x -> plain_v y ->
  vec_holds m x f -> vec_holds m y g -> disjoint (vcells x) (vcells y) ->
  par_same_as (kk_swap_1 x y) (swap_1 x y) m.
Proof. exact (@kk_swap_1_same). Qed.
Print Assumptions C57_swap_vectors.

Theorem C57_swap_matrices : forall (O : ops) (m : mem O) x y f g, ext0 x = ext0 y -> ext1 x = ext1 y -> plain_m x -> plain_m y ->
  mat_holds m x f -> mat_holds m y g -> disjoint (mcells x) (mcells y) ->
  par_same_as (kk_swap_2 x y) (swap_2 x y) m.
Proof. exact (@kk_swap_2_same). Qed.
Print Assumptions C57_swap_matrices.

Theorem C57_swap_vectors_mismatch : forall (O : ops) (x y : vec O), vext x <> vext y -> par_throws (kk_swap_1 x y).
Proof. exact (@kk_swap_1_mismatch). Qed.
Print Assumptions C57_swap_vectors_mismatch.

Theorem C57_swap_matrices_mismatch : forall (O : ops) (x y : mat O), ext0 x <> ext0 y \/ ext1 x <> ext1 y -> par_throws (kk_swap_2 x y).
Proof. exact (@kk_swap_2_mismatch). Qed.
Print Assumptions C57_swap_matrices_mismatch.

(** copy does not compare the extents: a 1x2 source and a 1x1 destination are an access out of range. *)
Theorem C57_copy_without_extent_check : exists (m : mem zops) x y f,
  plain_m x /\ plain_m y /\ mat_holds m x f /\ allocated m (mcells y) /\ ext1 x <> ext1 y /\
  ~ par_throws (kk_copy_2 x y) /\ forall Q, ~ par_succeeds (kk_copy_2 x y) m Q.
Proof.
  exists (mem_of [1; 2; 0]%Z), (row_major 0 1 2), (col_major 2 1 1), (@melt zops [[1; 2]]%Z).
  split; [split; auto|split; [split; auto|]]. split; [concrete|split; [concrete|split; [simpl; lia|split; [discriminate|]]]]. intros Q K. cbn in K.
  edestruct K as (_ & K2 & _).
  - eapply Relation_Operators.rt1n_trans. { apply (@region_task zops [] _ []). apply (@step_get zops 0 _ (mem_of [1; 2; 0]%Z) 1%Z eq_refl). }
    cbn. eapply Relation_Operators.rt1n_trans. { apply (@region_task zops [] _ []). apply (@step_put zops 2 1%Z _ _ 0%Z eq_refl). }
    cbn. eapply Relation_Operators.rt1n_trans. { apply (@region_task zops [] _ []). apply (@step_get zops 1 _ _ 2%Z eq_refl). }
    cbn. apply rt1n_refl.
  - cbn in K2. eapply K2; [left; reflexivity|]. split; [simpl; tauto|]. intros p' m' S. inversion S.
Qed.
Print Assumptions C57_copy_without_extent_check.

Example C57_case :
  red_same_as (kk_dot (vec_at 0 3) (vec_at 3 3) (7%Z : zops)) (dot (vec_at 0 3) (vec_at 3 3) (7%Z : zops)) (mem_of [1; 2; 3; 4; 5; 6]%Z) /\
  red_returns (kk_dot (vec_at 0 3) (vec_at 3 3) (7%Z : zops)) (mem_of [1; 2; 3; 4; 5; 6]%Z) (fun r => r = 39%Z) /\
  par_same_as (@kk_copy_2 zops (row_major 0 2 2) (col_major 4 2 2)) (copy_2 (row_major 0 2 2) (col_major 4 2 2)) (mem_of [1; 2; 3; 4; 0; 0; 0; 0]%Z) /\
  par_same_as (@kk_swap_1 zops (vec_at 0 2) (vec_at 2 2)) (swap_1 (vec_at 0 2) (vec_at 2 2)) (mem_of [1; 2; 3; 4]%Z) /\
  par_same_as (@kk_swap_2 zops (row_major 0 2 2) (col_major 4 2 2)) (swap_2 (row_major 0 2 2) (col_major 4 2 2)) (mem_of [1; 2; 3; 4; 5; 6; 7; 8]%Z) /\
  par_throws (@kk_swap_1 zops (vec_at 0 2) (vec_at 2 3)) /\ kk_dot (vec_at 0 2) (vec_at 2 3) (0%Z : zops) = RThrow.
Proof.
  split; [apply C57_dot with (f := @velt zops [1; 2; 3]%Z) (g := @velt zops [4; 5; 6]%Z); conc; auto|].
  split; [eapply red_mono; [apply kk_dot_ok with (f := @velt zops [1; 2; 3]%Z) (g := @velt zops [4; 5; 6]%Z); conc; auto|intros r ->; reflexivity]|].
  split; [apply C57_copy with (f := @melt zops [[1; 2]; [3; 4]]%Z); conc; auto|].
  split; [apply C57_swap_vectors with (f := @velt zops [1; 2]%Z) (g := @velt zops [3; 4]%Z); conc; auto|].
  split; [apply C57_swap_matrices with (f := @melt zops [[1; 2]; [3; 4]]%Z) (g := @melt zops [[5; 7]; [6; 8]]%Z); conc; auto|].
  split; [apply C57_swap_vectors_mismatch|apply C57_dot_mismatch]; simpl; lia.
Qed.

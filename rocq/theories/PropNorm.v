(** Properties C11, C13-C16, C54: sums of magnitudes and norms.

    The magnitude type is [exact dv sq]: the real numbers, with a division that is only known where the
    divisor is nonzero and a square root only known for nonnegative arguments ([exact_div], [exact_sqrt]). *)
From Coq Require Import List Arith Lia Bool Reals Lra Psatz.
From Verif Require Import Mem Scalar View Spec Wp Norm SpecR PfNorm PfFrob PfFrob2 Inst.
Import ListNotations.
Local Open Scope R_scope.

Lemma rdiv_exact : exact_div Rdiv. Proof. intros x y H; reflexivity. Qed.
Lemma rsqrt_exact : exact_sqrt sqrt. Proof. intros x H; reflexivity. Qed.
Lemma rabs_pos : forall v : real_ops, 0 <= mag real_mags v. Proof. intros; apply Rabs_pos. Qed.
Lemma cmod_pos : forall v : cplx_ops, 0 <= mag cplx_mags v. Proof. intros; apply sqrt_pos. Qed.

(** * C11 *)
(** The order of the additions, for every magnitude type (no law assumed); memory is unchanged. *)
Theorem C11_abs_sum_order : forall (O : ops) (F : rops) (M : mags O F) (m : mem O) v f init, vec_holds m v f ->
  run (vector_abs_sum M v init) m =
  Ok (fold_left (fun s i => if arithmetic M then radd s (eabs M (f i))
                            else radd (radd s (rabs (ereal M (f i)))) (rabs (eimag M (f i))))
        (seq 0 (vext v)) init) m.
Proof. exact (@abs_sum_order). Qed.
Print Assumptions C11_abs_sum_order.

(** [returns p m Q]: p ends normally, leaves memory as it is, and its value satisfies Q. *)
Theorem C11_abs_sum_real : forall (O : ops) (dv : R -> R -> R) (sq : R -> R) (M : mags O (exact dv sq)) (m : mem O) v f (init : R), arithmetic M = true -> vec_holds m v f ->
  returns (vector_abs_sum M v init) m (fun r => r = init + rsum (vext v) (fun i => mag M (f i))).
Proof. exact (@abs_sum_arith_ok). Qed.
Print Assumptions C11_abs_sum_real.

Theorem C11_abs_sum_complex : forall (O : ops) (dv : R -> R -> R) (sq : R -> R) (M : mags O (exact dv sq)) (m : mem O) v f (init : R), arithmetic M = false -> vec_holds m v f ->
  returns (vector_abs_sum M v init) m (fun r =>
    r = init + rsum (vext v) (fun i => Rabs (repart M (f i)) + Rabs (impart M (f i)))).
Proof. exact (@abs_sum_complex_ok). Qed.
Print Assumptions C11_abs_sum_complex.

Theorem C11_abs_sum_at_least_init : forall (O : ops) (dv : R -> R -> R) (sq : R -> R) (M : mags O (exact dv sq)) (m : mem O) v f (init : R), (forall x, 0 <= mag M x) -> vec_holds m v f ->
  returns (vector_abs_sum M v init) m (fun r => init <= r).
Proof. exact (@abs_sum_bound). Qed.
Print Assumptions C11_abs_sum_at_least_init.

(** Without init the sum starts from zero. *)
Theorem C11_abs_sum_noinit : forall (O : ops) (dv : R -> R -> R) (sq : R -> R) (M : mags O (exact dv sq)) (m : mem O) v f, vec_holds m v f ->
  returns (vector_abs_sum_noinit M v) m (fun r =>
    r = rsum (vext v) (fun i => if arithmetic M then mag M (f i) else Rabs (repart M (f i)) + Rabs (impart M (f i)))).
Proof. exact (@abs_sum_noinit_ok). Qed.
Print Assumptions C11_abs_sum_noinit.

Example C11_noinit_case :
  returns (vector_abs_sum_noinit real_mags (vec_at 0 3)) (mem_of [-3; 4; -1/2]) (fun r => r = 7.5).
Proof.
  eapply returns_conseq.
  - apply C11_abs_sum_noinit with (f := @velt real_ops [-3; 4; -1/2]); concrete.
  - intros r ->. unfold mag, velt; simpl. rewrite (Rabs_left (-3)), (Rabs_right 4), (Rabs_left (-1/2)); lra.
Qed.

Example C11_case :
  returns (vector_abs_sum real_mags (vec_at 0 3) 10) (mem_of [-3; 4; -1/2]) (fun r => r = 17.5) /\
  returns (vector_abs_sum cplx_mags (vec_at 0 2) 1) (mem_of [(3, -4); (-1, 0)]) (fun r => r = 9).
Proof.
  split.
  - eapply returns_conseq.
    + apply C11_abs_sum_real with (f := @velt real_ops [-3; 4; -1/2]); concrete.
    + intros r ->. unfold mag, velt; simpl. rewrite (Rabs_left (-3)), (Rabs_right 4), (Rabs_left (-1/2)); lra.
  - eapply returns_conseq.
    + apply C11_abs_sum_complex with (f := @velt cplx_ops [(3, -4); (-1, 0)]); concrete.
    + intros r ->. unfold repart, impart, velt; simpl. rewrite (Rabs_right 3), (Rabs_left (-4)), (Rabs_left (-1)), Rabs_R0; lra.
Qed.

(** * C13 *)
Theorem C13_sum_of_squares : forall (O : ops) (dv : R -> R -> R) (sq : R -> R) (M : mags O (exact dv sq)) (m : mem O) x f (init : @sum_of_squares_result (exact dv sq)), exact_div dv -> (forall v, 0 <= mag M v) ->
  vec_holds m x f -> 0 <= scaling_factor init ->
  returns (vector_sum_of_squares M x init) m (fun r =>
    scaling_factor r * scaling_factor r * scaled_sum_of_squares r =
      scaling_factor init * scaling_factor init * scaled_sum_of_squares init
      + rsum (vext x) (fun i => mag M (f i) * mag M (f i))
    /\ scaling_factor r = Rmax (scaling_factor init) (rmax0 (vext x) (fun i => mag M (f i)))).
Proof. exact (@ssq_fold_ok). Qed.
Print Assumptions C13_sum_of_squares.

Example C13_case :
  returns (vector_sum_of_squares real_mags (vec_at 0 3) (Ssq (F := exact Rdiv sqrt) 2 5)) (mem_of [0; -3; 1])
    (fun r => (scaling_factor r : R) = 3 /\ (scaled_sum_of_squares r : R) = 30 / 9).
Proof.
  eapply returns_conseq.
  - apply C13_sum_of_squares with (f := @velt real_ops [0; -3; 1]); [exact rdiv_exact|exact rabs_pos|concrete|simpl; lra].
  - intros [s q] [H1 H2]. unfold mag, velt in *; simpl in *.
    rewrite Rabs_R0, (Rabs_left (-3)), (Rabs_right 1) in * by lra.
    assert (s = 3) as -> by (revert H2; unfold Rmax; repeat destruct Rle_dec; intros; lra). split; [reflexivity|]. simpl in H1. lra.
Qed.

(** * C54 *)
Theorem C54_scaled_sum_bounded : forall (O : ops) (dv : R -> R -> R) (sq : R -> R) (M : mags O (exact dv sq)) (m : mem O) x f (init : @sum_of_squares_result (exact dv sq)), exact_div dv -> (forall v, 0 <= mag M v) ->
  vec_holds m x f -> 0 <= scaling_factor init -> 1 <= scaled_sum_of_squares init ->
  returns (vector_sum_of_squares M x init) m (fun r =>
    1 <= scaled_sum_of_squares r <= scaled_sum_of_squares init + INR (vext x)).
Proof. exact (@ssq_bounded). Qed.
Print Assumptions C54_scaled_sum_bounded.

Example C54_case :
  returns (vector_sum_of_squares real_mags (vec_at 0 3) (Ssq (F := exact Rdiv sqrt) 0 1)) (mem_of [1000000; -1000000; 1])
    (fun r => 1 <= scaled_sum_of_squares r <= 1 + INR 3).
Proof.
  apply C54_scaled_sum_bounded with (f := @velt real_ops [1000000; -1000000; 1]); [exact rdiv_exact|exact rabs_pos|concrete|simpl; lra|simpl; lra].
Qed.

(** * C14 *)
Theorem C14_two_norm : forall (O : ops) (dv : R -> R -> R) (sq : R -> R) (M : mags O (exact dv sq)) (m : mem O) x f (init : R), exact_div dv -> exact_sqrt sq -> (forall v, 0 <= mag M v) ->
  vec_holds m x f ->
  returns (vector_two_norm M x init) m (fun r => r = init + sqrt (rsum (vext x) (fun i => mag M (f i) * mag M (f i)))).
Proof. exact (@two_norm_ok). Qed.
Print Assumptions C14_two_norm.

Theorem C14_two_norm_noinit : forall (O : ops) (dv : R -> R -> R) (sq : R -> R) (M : mags O (exact dv sq)) (m : mem O) x f, exact_div dv -> exact_sqrt sq -> (forall v, 0 <= mag M v) ->
  vec_holds m x f ->
  returns (vector_two_norm_noinit M x) m (fun r => r = sqrt (rsum (vext x) (fun i => mag M (f i) * mag M (f i)))).
Proof. exact (@two_norm_noinit_ok). Qed.
Print Assumptions C14_two_norm_noinit.

Example C14_case :
  returns (vector_two_norm real_mags (vec_at 0 2) 10) (mem_of [-3; 4]) (fun r => r = 15) /\
  returns (vector_two_norm_noinit cplx_mags (vec_at 0 1)) (mem_of [(5, -12)]) (fun r => r = 13) /\
  returns (vector_two_norm_noinit real_mags (vec_at 0 0)) (mem_of []) (fun r => r = 0).
Proof.
  split; [|split]; (eapply returns_conseq; [
    first [apply C14_two_norm with (f := @velt real_ops [-3; 4]); [exact rdiv_exact|exact rsqrt_exact|exact rabs_pos|concrete]
          |apply C14_two_norm_noinit with (f := @velt cplx_ops [(5, -12)]); [exact rdiv_exact|exact rsqrt_exact|exact cmod_pos|concrete]
          |apply C14_two_norm_noinit with (f := @velt real_ops []); [exact rdiv_exact|exact rsqrt_exact|exact rabs_pos|concrete]] |]);
  intros r ->; unfold mag, velt; simpl.
  - rewrite (Rabs_left (-3)), (Rabs_right 4) by lra.
    replace (0 + - -3 * - -3 + 4 * 4) with (5 * 5) by lra. rewrite sqrt_square; lra.
  - unfold cmod; simpl. replace (5 * 5 + -12 * -12) with (13 * 13) by lra. rewrite sqrt_square by lra.
    rewrite Rplus_0_l, sqrt_square; lra.
  - rewrite ?Rplus_0_l; apply sqrt_0.
Qed.

(** * C15 *)
(** Full statement: r = init + sqrt(sum |a_ij|^2) for every matrix.  It holds when nonzero magnitudes do
    not decrease in row-major order; in general the result is too large. *)
Theorem C15_frob_norm_partial : forall (O : ops) (dv : R -> R -> R) (sq : R -> R) (M : mags O (exact dv sq)) (m : mem O) A a (init : R), exact_div dv -> exact_sqrt sq -> (forall v, 0 <= mag M v) ->
  mat_holds m A a ->
  (forall i j i' j', (i < ext0 A)%nat -> (j < ext1 A)%nat -> (i' < ext0 A)%nat -> (j' < ext1 A)%nat ->
     before i j i' j' -> mag M (a i' j') <> 0 -> mag M (a i j) <= mag M (a i' j')) ->
  returns (matrix_frob_norm M A init) m (fun r =>
    r = init + sqrt (rsum (ext0 A) (fun i => rsum (ext1 A) (fun j => mag M (a i j) * mag M (a i j))))).
Proof. exact (@frob_monotone_ok). Qed.
Print Assumptions C15_frob_norm_partial.

Theorem C15_frob_norm_noinit_partial : forall (O : ops) (dv : R -> R -> R) (sq : R -> R) (M : mags O (exact dv sq)) (m : mem O) A a, exact_div dv -> exact_sqrt sq -> (forall v, 0 <= mag M v) ->
  mat_holds m A a ->
  (forall i j i' j', (i < ext0 A)%nat -> (j < ext1 A)%nat -> (i' < ext0 A)%nat -> (j' < ext1 A)%nat ->
     before i j i' j' -> mag M (a i' j') <> 0 -> mag M (a i j) <= mag M (a i' j')) ->
  returns (matrix_frob_norm_noinit M A) m (fun r =>
    r = sqrt (rsum (ext0 A) (fun i => rsum (ext1 A) (fun j => mag M (a i j) * mag M (a i j))))).
Proof. exact (@frob_noinit_ok). Qed.
Print Assumptions C15_frob_norm_noinit_partial.

Theorem C15_frob_norm_overestimates_partial : forall (O : ops) (dv : R -> R -> R) (sq : R -> R) (M : mags O (exact dv sq)) (m : mem O) A a (init : R), exact_div dv -> exact_sqrt sq -> (forall v, 0 <= mag M v) ->
  mat_holds m A a ->
  returns (matrix_frob_norm M A init) m (fun r =>
    init + sqrt (rsum (ext0 A) (fun i => rsum (ext1 A) (fun j => mag M (a i j) * mag M (a i j)))) <= r).
Proof. exact (@frob_lower_bound). Qed.
Print Assumptions C15_frob_norm_overestimates_partial.

(** The value computed for A = [2 1] is not sqrt 5. *)
Lemma frob_2_1 : returns (matrix_frob_norm real_mags (@row_major real_ops 0 1 2) (0 : exact Rdiv sqrt)) (mem_of [2; 1]) (fun r =>
  r <> 0 + sqrt (rsum 1 (fun i => rsum 2 (fun j => mag real_mags (@melt real_ops [[2; 1]] i j) * mag real_mags (@melt real_ops [[2; 1]] i j))))).
Proof.
  assert (@mat_holds real_ops (mem_of [2; 1]) (@row_major real_ops 0 1 2) (@melt real_ops [[2; 1]])) as HA by concrete.
  unfold matrix_frob_norm. simpl ext0. simpl ext1. cbn [Nat.eqb orb andb].
  eapply returns_bind with (P := fun s : @sum_of_squares_result (exact Rdiv sqrt) => (scaling_factor s : R) = 2 /\ (scaled_sum_of_squares s : R) = 5).
  - unfold fold_range. simpl fold_.
    eapply returns_bind with (P := fun s : @sum_of_squares_result (exact Rdiv sqrt) => (scaling_factor s : R) = 2 /\ (scaled_sum_of_squares s : R) = 5);
      [|intros s Hs; apply returns_ret; exact Hs].
    eapply returns_bind with (P := fun s : @sum_of_squares_result (exact Rdiv sqrt) => (scaling_factor s : R) = 2 /\ (scaled_sum_of_squares s : R) = 1).
    + unfold frob_step, returns. simpl. rewrite (Rabs_right 2) by lra.
      destruct (Req_EM_T 2 0); [lra|]. destruct (Rlt_dec 0 2); [|lra]. eexists; split; [reflexivity|]. simpl. lra.
    + intros [s q] [E1 E2]. simpl in E1, E2. subst.
      eapply returns_bind with (P := fun s : @sum_of_squares_result (exact Rdiv sqrt) => (scaling_factor s : R) = 2 /\ (scaled_sum_of_squares s : R) = 5);
        [|intros s Hs; apply returns_ret; exact Hs].
      unfold frob_step, returns. simpl. rewrite (Rabs_right 1) by lra.
      destruct (Req_EM_T 1 0); [lra|]. destruct (Rlt_dec 2 1); [lra|]. eexists; split; [reflexivity|]. simpl. lra.
  - intros [s q] [E1 E2]. simpl in E1, E2. subst. apply returns_ret. unfold mag, melt. simpl.
    rewrite (Rabs_right 2), (Rabs_right 1) by lra.
    replace (0 + (0 + 2 * 2 + 1 * 1)) with 5 by lra. intros E.
    assert (0 < sqrt 5) by (apply sqrt_lt_R0; lra). lra.
Qed.
(** A = [2 1]: the code returns 2 sqrt(5) instead of sqrt(5). *)
Theorem C15_frob_norm_refuted : exists (m : mem real_ops) A a,
  mat_holds m A a /\
  returns (matrix_frob_norm real_mags A (0 : exact Rdiv sqrt)) m (fun r =>
    r <> 0 + sqrt (rsum (ext0 A) (fun i => rsum (ext1 A) (fun j => mag real_mags (a i j) * mag real_mags (a i j))))).
Proof.
  exists (mem_of [2; 1]), (row_major 0 1 2), (@melt real_ops [[2; 1]]).
  split; [concrete|].
  exact frob_2_1.
Qed.
Print Assumptions C15_frob_norm_refuted.
(** A = [3 4] meets the hypotheses of the partial theorem. *)
Example C15_case :
  returns (matrix_frob_norm real_mags (row_major 0 1 2) 1) (mem_of [3; 4]) (fun r => r = 6).
Proof.
  eapply returns_conseq.
  - apply C15_frob_norm_partial with (a := @melt real_ops [[3; 4]]); [exact rdiv_exact|exact rsqrt_exact|exact rabs_pos|concrete|].
    intros i j i' j' Hi Hj Hi' Hj' Hb _. simpl in *. unfold before in Hb.
    destruct i; [|lia]. destruct i'; [|lia]. destruct j as [|j]; [|lia]. destruct j' as [|[|j']]; try lia.
    unfold mag, melt; simpl. rewrite !Rabs_right; lra.
  - intros r ->. unfold mag, melt; simpl. rewrite (Rabs_right 3), (Rabs_right 4) by lra.
    replace (0 + (0 + 3 * 3 + 4 * 4)) with (5 * 5) by lra. rewrite sqrt_square; lra.
Qed.

(** The condition of the partial theorem is necessary as well: the call is right for exactly these matrices. *)
Theorem C15_frob_norm_right_iff : forall (O : ops) (dv : R -> R -> R) (sq : R -> R) (M : mags O (exact dv sq)) (m : mem O) A a (init : R), exact_div dv -> exact_sqrt sq -> (forall v, 0 <= mag M v) ->
  mat_holds m A a ->
  returns (matrix_frob_norm M A init) m (fun r =>
    r = init + sqrt (rsum (ext0 A) (fun i => rsum (ext1 A) (fun j => mag M (a i j) * mag M (a i j)))) <->
    (forall i j i' j', (i < ext0 A)%nat -> (j < ext1 A)%nat -> (i' < ext0 A)%nat -> (j' < ext1 A)%nat ->
       before i j i' j' -> mag M (a i' j') <> 0 -> mag M (a i j) <= mag M (a i' j'))).
Proof. exact (@frob_correct_iff). Qed.
Print Assumptions C15_frob_norm_right_iff.
(** A = [1 2 3; 0 1 0]: the second 1 comes after larger elements, so the result is not 3 + sqrt 15. *)
Example C15_right_iff_case :
  returns (matrix_frob_norm real_mags (row_major 0 2 3) 3) (mem_of [1; 2; 3; 0; 1; 0]) (fun r => r <> 3 + sqrt 15).
Proof.
  eapply returns_conseq.
  - apply C15_frob_norm_right_iff with (a := @melt real_ops [[1; 2; 3]; [0; 1; 0]]); [exact rdiv_exact|exact rsqrt_exact|exact rabs_pos|concrete].
  - intros r [K _] E.
    assert (Rabs 3 <= Rabs 1); [|rewrite !Rabs_right in H; lra].
    apply (fun H => K H 0%nat 2%nat 1%nat 1%nat); try (simpl; lia); [|left; lia|unfold mag, melt; simpl; rewrite Rabs_right; lra].
    rewrite E. unfold mag, melt; simpl. rewrite Rabs_R0, (Rabs_right 1), (Rabs_right 2), (Rabs_right 3) by lra.
    f_equal. f_equal. lra.
Qed.

(** * C16 *)
Theorem C16_inf_norm : forall (O : ops) (dv : R -> R -> R) (sq : R -> R) (M : mags O (exact dv sq)) (m : mem O) A a (init : R), (forall v, 0 <= mag M v) -> mat_holds m A a ->
  returns (matrix_inf_norm M A init) m (fun r =>
    r = init + rmax0 (ext0 A) (fun i => rsum (ext1 A) (fun j => mag M (a i j)))).
Proof. exact (@inf_norm_ok). Qed.
Print Assumptions C16_inf_norm.

Theorem C16_one_norm : forall (O : ops) (dv : R -> R -> R) (sq : R -> R) (M : mags O (exact dv sq)) (m : mem O) A a (init : R), (forall v, 0 <= mag M v) -> mat_holds m A a ->
  returns (matrix_one_norm M A init) m (fun r =>
    r = init + rmax0 (ext1 A) (fun j => rsum (ext0 A) (fun i => mag M (a i j)))).
Proof. exact (@one_norm_ok). Qed.
Print Assumptions C16_one_norm.

(** Without init. *)
Theorem C16_noinit : forall (O : ops) (dv : R -> R -> R) (sq : R -> R) (M : mags O (exact dv sq)) (m : mem O) A a, (forall v, 0 <= mag M v) -> mat_holds m A a ->
  returns (matrix_inf_norm_noinit M A) m (fun r => r = rmax0 (ext0 A) (fun i => rsum (ext1 A) (fun j => mag M (a i j)))) /\
  returns (matrix_one_norm_noinit M A) m (fun r => r = rmax0 (ext1 A) (fun j => rsum (ext0 A) (fun i => mag M (a i j)))).
Proof. exact (@norms_noinit_ok). Qed.
Print Assumptions C16_noinit.

Theorem C16_transposed : forall (O : ops) (dv : R -> R -> R) (sq : R -> R) (M : mags O (exact dv sq)) fixp (m : mem O) A At a (init : R), (forall v, 0 <= mag M v) ->
  transposed fixp A = Some At -> layout_ok (mlay A) (ext0 A) (ext1 A) -> mat_holds m A a ->
  run (matrix_one_norm M A init) m = run (matrix_inf_norm M At init) m /\
  run (matrix_inf_norm M A init) m = run (matrix_one_norm M At init) m.
Proof. exact (@one_inf_transposed). Qed.
Print Assumptions C16_transposed.

(** [rmax0 n f] is indeed the maximum of a nonempty family of nonnegative numbers. *)
Theorem C16_rmax0_is_max : forall n f, (forall i, (i < n)%nat -> f i <= rmax0 n f) /\
  (rmax0 n f = 0 \/ exists i, (i < n)%nat /\ rmax0 n f = f i).
Proof. exact (fun n f => Logic.conj (fun i Hi => @rmax0_ge n f i Hi) (rmax0_attained n f)). Qed.
Print Assumptions C16_rmax0_is_max.
Example C16_noinit_case :
  returns (matrix_inf_norm_noinit real_mags (row_major 0 2 2)) (mem_of [1; -2; 3; 4]) (fun r => r = 7) /\
  returns (matrix_one_norm_noinit real_mags (row_major 0 2 2)) (mem_of [1; -2; 3; 4]) (fun r => r = 6).
Proof.
  destruct (C16_noinit real_ops Rdiv sqrt real_mags (mem_of [1; -2; 3; 4]) (row_major 0 2 2)
    (@melt real_ops [[1; -2]; [3; 4]]) rabs_pos ltac:(concrete)) as [H1 H2].
  split; (eapply returns_conseq; [first [exact H1 | exact H2]|]);
  intros r ->; unfold mag, melt; simpl; rewrite ?(Rabs_left (-2)), ?(Rabs_right 1), ?(Rabs_right 3), ?(Rabs_right 4) by lra;
  unfold Rmax; repeat destruct Rle_dec; lra.
Qed.
Example C16_case :
  returns (matrix_inf_norm real_mags (row_major 0 2 2) 10) (mem_of [1; -2; 3; 4]) (fun r => r = 17) /\
  returns (matrix_one_norm real_mags (row_major 0 2 2) 10) (mem_of [1; -2; 3; 4]) (fun r => r = 16) /\
  returns (matrix_one_norm real_mags (row_major 0 2 0) 10) (mem_of []) (fun r => r = 10).
Proof.
  split; [|split]; (eapply returns_conseq; [
    first [apply C16_inf_norm with (a := @melt real_ops [[1; -2]; [3; 4]]); [exact rabs_pos|concrete]
          |apply C16_one_norm with (a := @melt real_ops [[1; -2]; [3; 4]]); [exact rabs_pos|concrete]]|]);
  intros r ->; unfold mag, melt; simpl; rewrite ?(Rabs_left (-2)), ?(Rabs_right 1), ?(Rabs_right 3), ?(Rabs_right 4) by lra;
  unfold Rmax; repeat destruct Rle_dec; lra.
Qed.

(** C85: which elements an inline algorithm loads and stores, whatever the memory contains, and that calls which do not store
    to what others load or store can run concurrently. *)
From Coq Require Import List Arith NArith ZArith Bool Lia.
From Verif Require Import Mem Scalar View Spec Idx Blas1 Blas2 Blas3 Norm SpecRace PfRace PfFoot Inst.
Import ListNotations.
Set Implicit Arguments.

(** Threads on a shared memory, interleaved load by load and store by store: if none stores to a cell that another one loads
    or stores, and each would succeed alone, then every execution ends, there is no data race and nothing undefined on the way,
    and at the end each thread has the result, and has stored the values, that it would have alone; nothing else has changed. *)
Theorem C85_concurrent : forall T A (ts : list (thread T A)) m xs ms,
  non_interfering ts ->
  (forall i t, nth_error ts i = Some t -> touches (code t) (loads t) (stores t)) ->
  length xs = length ts -> length ms = length ts ->
  (forall i t x m', nth_error ts i = Some t -> nth_error xs i = Some x -> nth_error ms i = Some m' -> run (code t) m = Ok x m') ->
  terminates (map (@code T A) ts, m) /\
  forall ps m', steps (map (@code T A) ts, m) (ps, m') ->
    ~ data_race ps /\ ~ faulty ps m' /\
    ((forall c, ~ step (ps, m') c) ->
       finished ps xs /\
       (forall i t mi a, nth_error ts i = Some t -> nth_error ms i = Some mi -> stores t a -> m' a = mi a) /\
       (forall a, (forall i t, nth_error ts i = Some t -> ~ stores t a) -> m' a = m a)).
Proof. exact concurrent. Qed.
Print Assumptions C85_concurrent.

Theorem C85_copy_1 : forall (O : ops) (x y : vec O),
  touches (copy_1 x y) (vcells x) (vcells y).
Proof. exact copy_1_foot. Qed.
Print Assumptions C85_copy_1.

Theorem C85_copy_2 : forall (O : ops) (x y : mat O),
  touches (copy_2 x y) (mcells x) (mcells y).
Proof. exact copy_2_foot. Qed.
Print Assumptions C85_copy_2.

Theorem C85_swap_1 : forall (O : ops) (x y : vec O),
  touches (swap_1 x y) (vcells x +++ vcells y) (vcells x +++ vcells y).
Proof. exact swap_1_foot. Qed.
Print Assumptions C85_swap_1.

Theorem C85_swap_2 : forall (O : ops) (x y : mat O),
  touches (swap_2 x y) (mcells x +++ mcells y) (mcells x +++ mcells y).
Proof. exact swap_2_foot. Qed.
Print Assumptions C85_swap_2.

Theorem C85_scale_1 : forall (O : ops) (alpha : O) (x : vec O),
  touches (scale_1 alpha x) (vcells x) (vcells x).
Proof. exact scale_1_foot. Qed.
Print Assumptions C85_scale_1.

Theorem C85_scale_2 : forall (O : ops) (alpha : O) (A : mat O),
  touches (scale_2 alpha A) (mcells A) (mcells A).
Proof. exact scale_2_foot. Qed.
Print Assumptions C85_scale_2.

Theorem C85_add_1 : forall (O : ops) (x y z : vec O),
  touches (add_1 x y z) (vcells x +++ vcells y) (vcells z).
Proof. exact add_1_foot. Qed.
Print Assumptions C85_add_1.

Theorem C85_add_2 : forall (O : ops) (x y z : mat O),
  touches (add_2 x y z) (mcells x +++ mcells y) (mcells z).
Proof. exact add_2_foot. Qed.
Print Assumptions C85_add_2.

Theorem C85_dot : forall (O : ops) (v1 v2 : vec O) (init : O),
  touches (dot v1 v2 init) (vcells v1 +++ vcells v2) (none).
Proof. exact dot_foot. Qed.
Print Assumptions C85_dot.

Theorem C85_vector_idx_abs_max : forall (O : ops) (M : Type) (mag : O -> M) (ltb : M -> M -> bool) (size_max : N) (v : vec O),
  touches (vector_idx_abs_max mag ltb size_max v) (vcells v) (none).
Proof. exact vector_idx_abs_max_foot. Qed.
Print Assumptions C85_vector_idx_abs_max.

Theorem C85_apply_givens_rotation : forall (O : ops) (x y : vec O) (c s : O),
  touches (apply_givens_rotation x y c s) (vcells x +++ vcells y) (vcells x +++ vcells y).
Proof. exact apply_givens_rotation_foot. Qed.
Print Assumptions C85_apply_givens_rotation.

Theorem C85_apply_givens_rotation_c : forall (O : ops) (x y : vec O) (c s : O),
  touches (apply_givens_rotation_c x y c s) (vcells x +++ vcells y) (vcells x +++ vcells y).
Proof. exact apply_givens_rotation_c_foot. Qed.
Print Assumptions C85_apply_givens_rotation_c.

Theorem C85_matrix_vector_product : forall (O : ops) (A : mat O) (x y : vec O),
  touches (matrix_vector_product A x y) (mcells A +++ vcells x +++ vcells y) (vcells y).
Proof. exact matrix_vector_product_foot. Qed.
Print Assumptions C85_matrix_vector_product.

Theorem C85_matrix_vector_product_upd : forall (O : ops) (A : mat O) (x y z : vec O),
  touches (matrix_vector_product_upd A x y z) (mcells A +++ vcells x +++ vcells y +++ vcells z) (vcells z).
Proof. exact matrix_vector_product_upd_foot. Qed.
Print Assumptions C85_matrix_vector_product_upd.

Theorem C85_symmetric_matrix_vector_product : forall (O : ops) (A : mat O) (t : triangle) (x y : vec O),
  touches (symmetric_matrix_vector_product A t x y) (mcells_on A (in_tri t) +++ vcells x +++ vcells y) (vcells y).
Proof. exact symmetric_matrix_vector_product_foot. Qed.
Print Assumptions C85_symmetric_matrix_vector_product.

Theorem C85_symmetric_matrix_vector_product_upd : forall (O : ops) (A : mat O) (t : triangle) (x y z : vec O),
  touches (symmetric_matrix_vector_product_upd A t x y z) (mcells_on A (in_tri t) +++ vcells x +++ vcells y +++ vcells z) (vcells z).
Proof. exact symmetric_matrix_vector_product_upd_foot. Qed.
Print Assumptions C85_symmetric_matrix_vector_product_upd.

Theorem C85_hermitian_matrix_vector_product : forall (O : ops) (A : mat O) (t : triangle) (x y : vec O),
  touches (hermitian_matrix_vector_product A t x y) (mcells_on A (in_tri t) +++ vcells x +++ vcells y) (vcells y).
Proof. exact hermitian_matrix_vector_product_foot. Qed.
Print Assumptions C85_hermitian_matrix_vector_product.

Theorem C85_hermitian_matrix_vector_product_upd : forall (O : ops) (A : mat O) (t : triangle) (x y z : vec O),
  touches (hermitian_matrix_vector_product_upd A t x y z) (mcells_on A (in_tri t) +++ vcells x +++ vcells y +++ vcells z) (vcells z).
Proof. exact hermitian_matrix_vector_product_upd_foot. Qed.
Print Assumptions C85_hermitian_matrix_vector_product_upd.

Theorem C85_triangular_matrix_vector_product : forall (O : ops) (A : mat O) (t : triangle) (d : diagonal) (x y : vec O),
  touches (triangular_matrix_vector_product A t d x y) (mcells_on A (stored t d) +++ vcells x +++ vcells y) (vcells y).
Proof. exact triangular_matrix_vector_product_foot. Qed.
Print Assumptions C85_triangular_matrix_vector_product.

Theorem C85_triangular_matrix_vector_product_upd : forall (O : ops) (A : mat O) (t : triangle) (d : diagonal) (x y z : vec O),
  touches (triangular_matrix_vector_product_upd A t d x y z) (mcells_on A (stored t d) +++ vcells x +++ vcells y +++ vcells z) (vcells z).
Proof. exact triangular_matrix_vector_product_upd_foot. Qed.
Print Assumptions C85_triangular_matrix_vector_product_upd.

Theorem C85_triangular_matrix_vector_product_inplace : forall (O : ops) (A : mat O) (t : triangle) (d : diagonal) (y : vec O),
  touches (triangular_matrix_vector_product_inplace A t d y) (mcells_on A (stored t d) +++ vcells y) (vcells y).
Proof. exact triangular_matrix_vector_product_inplace_foot. Qed.
Print Assumptions C85_triangular_matrix_vector_product_inplace.

Theorem C85_triangular_matrix_vector_solve : forall (O : ops) (ty : ity) (A : mat O) (t : triangle) (d : diagonal) (b x : vec O),
  fits ty (ext0 A) -> touches (triangular_matrix_vector_solve ty A t d b x) (mcells_on A (stored t d) +++ vcells b +++ vcells x) (vcells x).
Proof. exact triangular_matrix_vector_solve_foot. Qed.
Print Assumptions C85_triangular_matrix_vector_solve.

Theorem C85_matrix_rank_1_update : forall (O : ops) (x y : vec O) (A : mat O),
  touches (matrix_rank_1_update x y A) (vcells x +++ vcells y +++ mcells A) (mcells A).
Proof. exact matrix_rank_1_update_foot. Qed.
Print Assumptions C85_matrix_rank_1_update.

Theorem C85_symmetric_matrix_rank_1_update_alpha : forall (O : ops) (alpha : O) (x : vec O) (A : mat O) (t : triangle),
  touches (symmetric_matrix_rank_1_update_alpha alpha x A t) (vcells x +++ mcells_on A (in_tri t)) (mcells_on A (in_tri t)).
Proof. exact symmetric_matrix_rank_1_update_alpha_foot. Qed.
Print Assumptions C85_symmetric_matrix_rank_1_update_alpha.

Theorem C85_symmetric_matrix_rank_1_update : forall (O : ops) (x : vec O) (A : mat O) (t : triangle),
  touches (symmetric_matrix_rank_1_update x A t) (vcells x +++ mcells_on A (in_tri t)) (mcells_on A (in_tri t)).
Proof. exact symmetric_matrix_rank_1_update_foot. Qed.
Print Assumptions C85_symmetric_matrix_rank_1_update.

Theorem C85_symmetric_matrix_rank_2_update : forall (O : ops) (x y : vec O) (A : mat O) (t : triangle),
  touches (symmetric_matrix_rank_2_update x y A t) (vcells x +++ vcells y +++ mcells_on A (in_tri t)) (mcells_on A (in_tri t)).
Proof. exact symmetric_matrix_rank_2_update_foot. Qed.
Print Assumptions C85_symmetric_matrix_rank_2_update.

Theorem C85_hermitian_matrix_rank_1_update_alpha : forall (O : ops) (alpha : O) (x : vec O) (A : mat O) (t : triangle),
  touches (hermitian_matrix_rank_1_update_alpha alpha x A t) (vcells x +++ mcells_on A (in_tri t)) (mcells_on A (in_tri t)).
Proof. exact hermitian_matrix_rank_1_update_alpha_foot. Qed.
Print Assumptions C85_hermitian_matrix_rank_1_update_alpha.

Theorem C85_hermitian_matrix_rank_1_update : forall (O : ops) (x : vec O) (A : mat O) (t : triangle),
  touches (hermitian_matrix_rank_1_update x A t) (vcells x +++ mcells_on A (in_tri t)) (mcells_on A (in_tri t)).
Proof. exact hermitian_matrix_rank_1_update_foot. Qed.
Print Assumptions C85_hermitian_matrix_rank_1_update.

Theorem C85_hermitian_matrix_rank_2_update : forall (O : ops) (x y : vec O) (A : mat O) (t : triangle),
  touches (hermitian_matrix_rank_2_update x y A t) (vcells x +++ vcells y +++ mcells_on A (in_tri t)) (mcells_on A (in_tri t)).
Proof. exact hermitian_matrix_rank_2_update_foot. Qed.
Print Assumptions C85_hermitian_matrix_rank_2_update.

Theorem C85_matrix_product : forall (O : ops) (A B C : mat O),
  touches (matrix_product A B C) (mcells A +++ mcells B +++ mcells C) (mcells C).
Proof. exact matrix_product_foot. Qed.
Print Assumptions C85_matrix_product.

Theorem C85_matrix_product_upd : forall (O : ops) (A B E C : mat O),
  touches (matrix_product_upd A B E C) (mcells A +++ mcells B +++ mcells E +++ mcells C) (mcells C).
Proof. exact matrix_product_upd_foot. Qed.
Print Assumptions C85_matrix_product_upd.

Theorem C85_triangular_matrix_product_left : forall (O : ops) (ty : ity) (A : mat O) (t : triangle) (d : diagonal) (B C : mat O),
  fits ty (ext0 C) -> touches (triangular_matrix_product_left ty A t d B C) (mcells_on A (stored t d) +++ mcells B +++ mcells C) (mcells C).
Proof. exact triangular_matrix_product_left_foot. Qed.
Print Assumptions C85_triangular_matrix_product_left.

Theorem C85_triangular_matrix_product_right : forall (O : ops) (ty : ity) (B A : mat O) (t : triangle) (d : diagonal) (C : mat O),
  fits ty (ext1 C) -> touches (triangular_matrix_product_right ty B A t d C) (mcells_on A (stored t d) +++ mcells B +++ mcells C) (mcells C).
Proof. exact triangular_matrix_product_right_foot. Qed.
Print Assumptions C85_triangular_matrix_product_right.

Theorem C85_triangular_matrix_left_product : forall (O : ops) (A : mat O) (t : triangle) (d : diagonal) (C : mat O),
  touches (triangular_matrix_left_product A t d C) (mcells_on A (stored t d) +++ mcells C) (mcells C).
Proof. exact triangular_matrix_left_product_foot. Qed.
Print Assumptions C85_triangular_matrix_left_product.

Theorem C85_triangular_matrix_right_product : forall (O : ops) (A : mat O) (t : triangle) (d : diagonal) (C : mat O),
  touches (triangular_matrix_right_product A t d C) (mcells_on A (stored t d) +++ mcells C) (mcells C).
Proof. exact triangular_matrix_right_product_foot. Qed.
Print Assumptions C85_triangular_matrix_right_product.

Theorem C85_symmetric_matrix_product_left : forall (O : ops) (A : mat O) (t : triangle) (B C : mat O),
  touches (symmetric_matrix_product_left A t B C) (mcells_on A (in_tri t) +++ mcells B +++ mcells C) (mcells C).
Proof. exact symmetric_matrix_product_left_foot. Qed.
Print Assumptions C85_symmetric_matrix_product_left.

Theorem C85_symmetric_matrix_product_right : forall (O : ops) (B A : mat O) (t : triangle) (C : mat O),
  touches (symmetric_matrix_product_right B A t C) (mcells_on A (in_tri t) +++ mcells B +++ mcells C) (mcells C).
Proof. exact symmetric_matrix_product_right_foot. Qed.
Print Assumptions C85_symmetric_matrix_product_right.

Theorem C85_hermitian_matrix_product_left : forall (O : ops) (A : mat O) (t : triangle) (B C : mat O),
  touches (hermitian_matrix_product_left A t B C) (mcells_on A (in_tri t) +++ mcells B +++ mcells C) (mcells C).
Proof. exact hermitian_matrix_product_left_foot. Qed.
Print Assumptions C85_hermitian_matrix_product_left.

Theorem C85_hermitian_matrix_product_right : forall (O : ops) (B A : mat O) (t : triangle) (C : mat O),
  touches (hermitian_matrix_product_right B A t C) (mcells_on A (in_tri t) +++ mcells B +++ mcells C) (mcells C).
Proof. exact hermitian_matrix_product_right_foot. Qed.
Print Assumptions C85_hermitian_matrix_product_right.

Theorem C85_symmetric_matrix_rank_k_update_alpha : forall (O : ops) (alpha : O) (A C : mat O) (t : triangle),
  touches (symmetric_matrix_rank_k_update_alpha alpha A C t) (mcells A +++ mcells_on C (in_tri t)) (mcells_on C (in_tri t)).
Proof. exact symmetric_matrix_rank_k_update_alpha_foot. Qed.
Print Assumptions C85_symmetric_matrix_rank_k_update_alpha.

Theorem C85_symmetric_matrix_rank_k_update : forall (O : ops) (A C : mat O) (t : triangle),
  touches (symmetric_matrix_rank_k_update A C t) (mcells A +++ mcells_on C (in_tri t)) (mcells_on C (in_tri t)).
Proof. exact symmetric_matrix_rank_k_update_foot. Qed.
Print Assumptions C85_symmetric_matrix_rank_k_update.

Theorem C85_symmetric_matrix_rank_2k_update : forall (O : ops) (A B C : mat O) (t : triangle),
  touches (symmetric_matrix_rank_2k_update A B C t) (mcells A +++ mcells B +++ mcells_on C (in_tri t)) (mcells_on C (in_tri t)).
Proof. exact symmetric_matrix_rank_2k_update_foot. Qed.
Print Assumptions C85_symmetric_matrix_rank_2k_update.

Theorem C85_hermitian_matrix_rank_k_update_alpha : forall (O : ops) (alpha : O) (A C : mat O) (t : triangle),
  touches (hermitian_matrix_rank_k_update_alpha alpha A C t) (mcells A +++ mcells_on C (in_tri t)) (mcells_on C (in_tri t)).
Proof. exact hermitian_matrix_rank_k_update_alpha_foot. Qed.
Print Assumptions C85_hermitian_matrix_rank_k_update_alpha.

Theorem C85_hermitian_matrix_rank_k_update : forall (O : ops) (A C : mat O) (t : triangle),
  touches (hermitian_matrix_rank_k_update A C t) (mcells A +++ mcells_on C (in_tri t)) (mcells_on C (in_tri t)).
Proof. exact hermitian_matrix_rank_k_update_foot. Qed.
Print Assumptions C85_hermitian_matrix_rank_k_update.

Theorem C85_hermitian_matrix_rank_2k_update : forall (O : ops) (A B C : mat O) (t : triangle),
  touches (hermitian_matrix_rank_2k_update A B C t) (mcells A +++ mcells B +++ mcells_on C (in_tri t)) (mcells_on C (in_tri t)).
Proof. exact hermitian_matrix_rank_2k_update_foot. Qed.
Print Assumptions C85_hermitian_matrix_rank_2k_update.

Theorem C85_triangular_matrix_matrix_left_solve : forall (O : ops) (ty : ity) (A : mat O) (t : triangle) (d : diagonal) (B X : mat O),
  fits ty (ext0 A) -> touches (triangular_matrix_matrix_left_solve ty A t d B X) (mcells_on A (stored t d) +++ mcells B +++ mcells X) (mcells X).
Proof. exact triangular_matrix_matrix_left_solve_foot. Qed.
Print Assumptions C85_triangular_matrix_matrix_left_solve.

Theorem C85_triangular_matrix_matrix_right_solve : forall (O : ops) (ty : ity) (A : mat O) (t : triangle) (d : diagonal) (B X : mat O),
  fits ty (ext1 A) -> touches (triangular_matrix_matrix_right_solve ty A t d B X) (mcells_on A (stored t d) +++ mcells B +++ mcells X) (mcells X).
Proof. exact triangular_matrix_matrix_right_solve_foot. Qed.
Print Assumptions C85_triangular_matrix_matrix_right_solve.

Theorem C85_vector_abs_sum : forall (O : ops) (F : rops) (M : mags O F) (v : vec O) (init : F),
  touches (vector_abs_sum M v init) (vcells v) (none).
Proof. exact vector_abs_sum_foot. Qed.
Print Assumptions C85_vector_abs_sum.

Theorem C85_vector_sum_of_squares : forall (O : ops) (F : rops) (M : mags O F) (x : vec O) (init : sum_of_squares_result),
  touches (vector_sum_of_squares M x init) (vcells x) (none).
Proof. exact vector_sum_of_squares_foot. Qed.
Print Assumptions C85_vector_sum_of_squares.

Theorem C85_matrix_frob_norm : forall (O : ops) (F : rops) (M : mags O F) (A : mat O) (init : F),
  touches (matrix_frob_norm M A init) (mcells A) (none).
Proof. exact matrix_frob_norm_foot. Qed.
Print Assumptions C85_matrix_frob_norm.

Theorem C85_matrix_inf_norm : forall (O : ops) (F : rops) (M : mags O F) (A : mat O) (init : F),
  touches (matrix_inf_norm M A init) (mcells A) (none).
Proof. exact matrix_inf_norm_foot. Qed.
Print Assumptions C85_matrix_inf_norm.

Theorem C85_matrix_one_norm : forall (O : ops) (F : rops) (M : mags O F) (A : mat O) (init : F),
  touches (matrix_one_norm M A init) (mcells A) (none).
Proof. exact matrix_one_norm_foot. Qed.
Print Assumptions C85_matrix_one_norm.

(** The lower triangle of A (at 0, 2 x 2) is updated with x x^T (x at 4) while another thread multiplies the strictly upper
    triangle of the same A, with a unit diagonal, with the same x into y (at 6). *)
Definition race_A : mat zops := row_major 0 2 2.
Definition race_x : vec zops := vec_at 4 2.
Definition race_y : vec zops := vec_at 6 2.
Definition race_threads : list (thread zops unit) :=
  [Thread (symmetric_matrix_rank_1_update race_x race_A Lower)
     (vcells race_x +++ mcells_on race_A (in_tri Lower)) (mcells_on race_A (in_tri Lower));
   Thread (triangular_matrix_vector_product race_A Upper ImplicitUnit race_x race_y)
     (mcells_on race_A (stored Upper ImplicitUnit) +++ vcells race_x +++ vcells race_y) (vcells race_y)].
Lemma race_apart : non_interfering race_threads.
Proof.
  intros [|[|i]] [|[|j]] s t N Hs Ht; try lia; simpl in Hs, Ht; try (destruct i; discriminate); try (destruct j; discriminate);
    inversion Hs; inversion Ht; subst; clear Hs Ht; split; simpl; intros a Ha Hb; unfold cup, vcells, mcells, mcells_on, stored, in_tri in *;
    simpl in *; unfold maddr, vaddr in *; simpl in *;
    repeat match goal with H : exists _, _ |- _ => destruct H | H : _ /\ _ |- _ => destruct H | H : _ \/ _ |- _ => destruct H end;
    try match goal with H : ImplicitUnit = ImplicitUnit -> _ |- _ => specialize (H eq_refl) end; subst;
    repeat match goal with H : ?i < 2 |- _ => destruct i as [|[|i]]; [| |lia]; clear H end; simpl in *; try lia.
Qed.
Lemma race_touches : forall i t, nth_error race_threads i = Some t -> touches (code t) (loads t) (stores t).
Proof.
  intros [|[|[|i]]] t Ht; simpl in Ht; try discriminate; inversion Ht; subst; cbn [code loads stores].
  - apply C85_symmetric_matrix_rank_1_update.
  - apply C85_triangular_matrix_vector_product.
Qed.
Example C85_case : forall ps m', 
  steps (map (@code _ _) race_threads, mem_of [1; 2; 0; 3; 10; 20; 7; 7; 5]%Z) (ps, m') -> (forall c, ~ step (ps, m') c) ->
  ~ data_race ps /\ finished ps [tt; tt] /\ map m' (seq 0 9) = map Some [101; 2; 200; 403; 10; 20; 50; 20; 5]%Z.
Proof.
  intros ps m' Hs He. set (m := mem_of [1; 2; 0; 3; 10; 20; 7; 7; 5]%Z : mem zops).
  destruct (run (symmetric_matrix_rank_1_update race_x race_A Lower) m) as [u1 m1|] eqn:E1; [|vm_compute in E1; discriminate].
  destruct (run (triangular_matrix_vector_product race_A Upper ImplicitUnit race_x race_y) m) as [u2 m2|] eqn:E2; [|vm_compute in E2; discriminate].
  destruct (@C85_concurrent _ _ race_threads m [u1; u2] [m1; m2] race_apart race_touches eq_refl eq_refl) as [_ H].
  { intros [|[|[|i]]] t x mi H1 H2 H3; simpl in H1, H2, H3; try discriminate; inversion H1; inversion H2; inversion H3; subst; auto. }
  destruct (H ps m' Hs) as (H1 & H2 & H3). destruct (H3 He) as (F & S & U). destruct u1, u2. split; auto. split; auto.
  assert (S1 := fun a => S 0 _ m1 a eq_refl eq_refl). assert (S2 := fun a => S 1 _ m2 a eq_refl eq_refl).
  assert (U' : forall a, a = 1 \/ a = 4 \/ a = 5 \/ a = 8 -> m' a = m a).
  { intros a Ha. apply U. intros [|[|[|i]]] t Ht; simpl in Ht; try discriminate; inversion Ht; subst; simpl;
      unfold vcells, mcells_on, in_tri; simpl; unfold maddr, vaddr; simpl; intros Hc;
      repeat match goal with H : exists _, _ |- _ => destruct H | H : _ /\ _ |- _ => destruct H end;
      repeat match goal with H : ?i < 2 |- _ => destruct i as [|[|i]]; [| |lia]; clear H end; simpl in *; try lia. }
  simpl. rewrite (U' 1), (U' 4), (U' 5), (U' 8) by auto. simpl in S1, S2.
  rewrite (S1 0), (S1 2), (S1 3), (S2 6), (S2 7).
  - vm_compute in E1, E2. inversion E1; inversion E2; subst. reflexivity.
  - exists 1; split; [simpl; lia|reflexivity].
  - exists 0; split; [simpl; lia|reflexivity].
  - exists 1, 1; repeat split; simpl; lia.
  - exists 1, 0; repeat split; simpl; lia.
  - exists 0, 0; repeat split; simpl; lia.
Qed.

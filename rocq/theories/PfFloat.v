(** Floating-point error bounds of the algorithms. *)
From Coq Require Import List Arith ZArith Reals Lia Lra Bool.
From Flocq Require Import Core.Core IEEE754.BinarySingleNaN.
From Verif Require Import Mem Scalar View Spec SpecR SpecF SpecSub Idx Wp Loops Sums Norm Ieee Blas1 Blas2 Blas3
  PfBlas1 PfBlas2 PfTrsv PfBlas3 PfTrsm PfSub PfIeee PfIeeeSub.

Section Float.
Context (prec emax : Z) (Hp : Prec_gt_0 prec) (He : Prec_lt_emax prec emax).
Notation F := (ieee_ops prec emax Hp He).
Local Open Scope nat_scope.

Lemma accurate_sum : forall n (s : F) f g,
  accurate (n + 1) n s f g (@sum_from F s 0 n (fun k => @mul F (f k) (g k))).
Proof. intros; split; [apply dot_err | apply dot_finite]. Qed.
Lemma accurate_bigsum : forall n f g,
  accurate n n (@zero F) f g (@bigsum F n (fun k => @mul F (f k) (g k))).
Proof.
  intros; split; [|apply dot_finite]. intros H. destruct (dot0_err prec emax Hp He n f g H) as (K1 & K2 & K3).
  repeat split; auto. change (B2R (@zero F)) with 0%R. rewrite Rabs_R0, !Rplus_0_l. exact K3.
Qed.

Lemma dot_float : forall (m : mem F) x y f g init,
  vext x = vext y -> vec_holds m x f -> vec_holds m y g ->
  succeeds (dot x y init) m (fun r m' => accurate (vext x + 1) (vext x) init f g r /\ m' = m).
Proof.
  intros m x y f g init H1 H2 H3. eapply wp_conseq; [apply (@dot_ok F); eauto|]. intros r m' [-> ->]. split; auto.
  apply accurate_sum.
Qed.
Lemma dot_noinit_float : forall (m : mem F) x y f g,
  vext x = vext y -> vec_holds m x f -> vec_holds m y g ->
  succeeds (dot_noinit x y) m (fun r m' => accurate (vext x) (vext x) (@zero F) f g r /\ m' = m).
Proof.
  intros m x y f g H1 H2 H3. eapply wp_conseq; [apply (@dot_ok F); eauto|]. intros r m' [-> ->]. split; auto.
  apply accurate_bigsum.
Qed.
Lemma gemv_float : forall (m : mem F) A x y a f,
  vext x = ext1 A -> vext y = ext0 A ->
  mat_holds m A a -> vec_holds m x f -> vwritable y -> allocated m (vcells y) ->
  disjoint (mcells A) (vcells y) -> disjoint (vcells x) (vcells y) ->
  succeeds (matrix_vector_product A x y) m (fun _ m' =>
    (exists r, vec_holds m' y r /\ forall i, i < vext y -> accurate (ext1 A) (ext1 A) (@zero F) (a i) f (r i)) /\
    changes_only m m' (vcells y)).
Proof.
  intros. eapply wp_conseq; [apply (@gemv_ok F); eauto|]. intros [] m' [K1 K2]. split; auto.
  eexists; split; [exact K1|]. intros. apply accurate_bigsum.
Qed.
Lemma gemv_upd_float : forall (m : mem F) A x y z a f g,
  vext x = ext1 A -> vext y = ext0 A -> vext z = ext0 A ->
  mat_holds m A a -> vec_holds m x f -> vec_holds m y g -> vwritable z -> allocated m (vcells z) ->
  disjoint (mcells A) (vcells z) -> disjoint (vcells x) (vcells z) -> disjoint_or_aligned_v y z ->
  succeeds (matrix_vector_product_upd A x y z) m (fun _ m' =>
    (exists r, vec_holds m' z r /\ forall i, i < vext z -> accurate (ext1 A + 1) (ext1 A) (g i) (a i) f (r i)) /\
    changes_only m m' (vcells z)).
Proof.
  intros. eapply wp_conseq; [apply (@gemv_upd_ok F) with (g := g); eauto|]. intros [] m' [K1 K2]. split; auto.
  eexists; split; [exact K1|]. intros. apply accurate_sum.
Qed.
Lemma gemm_float : forall (m : mem F) A B C a b,
  ext0 C = ext0 A -> ext1 A = ext0 B -> ext1 C = ext1 B ->
  mat_holds m A a -> mat_holds m B b -> mwritable C -> allocated m (mcells C) ->
  disjoint (mcells A) (mcells C) -> disjoint (mcells B) (mcells C) ->
  succeeds (matrix_product A B C) m (fun _ m' =>
    (exists r, mat_holds m' C r /\ forall i j, i < ext0 C -> j < ext1 C ->
       accurate (ext1 A) (ext1 A) (@zero F) (a i) (fun k => b k j) (r i j)) /\
    changes_only m m' (mcells C)).
Proof.
  intros. eapply wp_conseq; [apply (@gemm_ok F); eauto|]. intros [] m' [K1 K2]. split; auto.
  eexists; split; [exact K1|]. intros i j Hi Hj. exact (accurate_bigsum (ext1 A) (a i) (fun k => b k j)).
Qed.
Lemma gemm_upd_float : forall (m : mem F) A B E C a b e,
  ext0 C = ext0 A -> ext1 A = ext0 B -> ext1 C = ext1 B -> ext0 E = ext0 C -> ext1 E = ext1 C ->
  mat_holds m A a -> mat_holds m B b -> mat_holds m E e -> mwritable C -> allocated m (mcells C) ->
  disjoint (mcells A) (mcells C) -> disjoint (mcells B) (mcells C) -> disjoint_or_aligned_m E C ->
  succeeds (matrix_product_upd A B E C) m (fun _ m' =>
    (exists r, mat_holds m' C r /\ forall i j, i < ext0 C -> j < ext1 C ->
       accurate (ext1 A + 1) (ext1 A) (e i j) (a i) (fun k => b k j) (r i j)) /\
    changes_only m m' (mcells C)).
Proof.
  intros. eapply wp_conseq; [apply (@gemm_upd_ok F) with (e := e); eauto|]. intros [] m' [K1 K2]. split; auto.
  eexists; split; [exact K1|]. intros i j Hi Hj. exact (accurate_sum (ext1 A) (e i j) (a i) (fun k => b k j)).
Qed.

Lemma trsv_float : forall ty (m : mem F) A t d B X a b,
  fits ty (ext0 A) -> (ext0 A = 0 -> t = Upper -> ty <> U32) ->
  ext0 A = ext1 A -> vext B = ext0 A -> vext X = ext0 A ->
  mat_holds_on m A (stored t d) a -> vec_holds m B b -> vwritable X -> allocated m (vcells X) ->
  disjoint (mcells_on A (stored t d)) (vcells X) -> disjoint_or_aligned_v B X ->
  (d = Explicit -> forall i, i < ext0 A -> is_finite (a i i) = true) ->
  succeeds (triangular_matrix_vector_solve ty A t d B X) m (fun _ m' =>
    (exists f, vec_holds m' X f /\ (all_finite (ext0 A) f -> small_residual t d (ext0 A) a b f))
    /\ changes_only m m' (vcells X)).
Proof.
  intros ty m A t d B X a b H1 H2 H3 H4 H5 H6 H7 H8 H9 H10 H11 H12.
  eapply wp_conseq; [apply (@trsv_subst F) with (a := a) (b := b); eauto|]. intros [] m' [(f & K1 & K2) K3]. split; auto.
  exists f; split; auto. intros Hf. exact (subst_residual prec emax Hp He t d (ext0 A) a b f K2 H12 Hf).
Qed.
Lemma trsm_left_float : forall ty (m : mem F) A t d B X a b,
  fits ty (ext0 A) -> (ext0 A = 0 -> t = Upper -> ty <> U32) ->
  ext0 A = ext1 A -> ext0 B = ext0 A -> ext0 X = ext0 A -> ext1 X = ext1 B ->
  mat_holds_on m A (stored t d) a -> mat_holds m B b -> mwritable X -> allocated m (mcells X) ->
  disjoint (mcells_on A (stored t d)) (mcells X) -> disjoint_or_aligned_m B X ->
  (d = Explicit -> forall i, i < ext0 A -> is_finite (a i i) = true) ->
  succeeds (triangular_matrix_matrix_left_solve ty A t d B X) m (fun _ m' =>
    (exists x, mat_holds m' X x /\ forall j, j < ext1 X -> all_finite (ext0 A) (fun i => x i j) ->
       small_residual t d (ext0 A) a (fun i => b i j) (fun i => x i j))
    /\ changes_only m m' (mcells X)).
Proof.
  intros ty m A t d B X a b H1 H2 H3 H4 H5 H5' H6 H7 H8 H9 H10 H11 H12.
  eapply wp_conseq; [apply (@trsm_left_subst F) with (a := a) (b := b); eauto|]. intros [] m' [(x & K1 & K2) K3]. split; auto.
  exists x; split; auto. intros j Hj Hf.
  refine (subst_residual prec emax Hp He t d (ext0 A) a (fun i => b i j) (fun i => x i j) _ H12 Hf).
  intros i Hi. apply K2; lia.
Qed.
Lemma trsm_right_float : forall ty (m : mem F) A t d B X a b,
  (t = Lower -> fits (make_signed ty) (ext0 A)) ->
  ext0 A = ext1 A -> ext1 B = ext0 A -> ext1 X = ext0 A -> ext0 X = ext0 B ->
  mat_holds_on m A (stored t d) a -> mat_holds m B b -> mwritable X -> allocated m (mcells X) ->
  disjoint (mcells_on A (stored t d)) (mcells X) -> disjoint_or_aligned_m B X ->
  (d = Explicit -> forall i, i < ext0 A -> is_finite (a i i) = true) ->
  succeeds (triangular_matrix_matrix_right_solve ty A t d B X) m (fun _ m' =>
    (exists x, mat_holds m' X x /\ forall i, i < ext0 X -> all_finite (ext0 A) (x i) ->
       small_residual_r t d (ext0 A) a (b i) (x i))
    /\ changes_only m m' (mcells X)).
Proof.
  intros ty m A t d B X a b H1 H3 H4 H5 H5' H6 H7 H8 H9 H10 H11 H12.
  eapply wp_conseq; [apply (@trsm_right_subst F) with (a := a) (b := b); eauto|]. intros [] m' [(x & K1 & K2) K3]. split; auto.
  exists x; split; auto. intros i Hi Hf.
  refine (subst_residual_r prec emax Hp He t d (ext0 A) a (b i) (x i) _ H12 Hf).
  intros j Hj. apply K2; lia.
Qed.
End Float.

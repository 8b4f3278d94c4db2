(** Error bounds of the algorithms in complex floating-point arithmetic. *)
From Coq Require Import List Arith ZArith Reals Lia Lra Bool.
From Flocq Require Import Core.Core IEEE754.BinarySingleNaN.
From Verif Require Import Mem Scalar View Spec SpecR SpecF SpecC Idx Wp Loops Sums Norm Ieee IeeeC Blas1 Blas2 Blas3
  PfBlas1 PfBlas2 PfRank PfBlas3 PfComplex.

Section ComplexOps.
Context (prec emax : Z) (Hp : Prec_gt_0 prec) (He : Prec_lt_emax prec emax).
Variables recover cdiv : cfl prec emax -> cfl prec emax -> cfl prec emax.
Hypothesis Hrec : forall x y, ~ cfin (recover x y).
Notation C := (ieee_c prec emax Hp He recover cdiv).
Notation acc_sum := (caccurate_sum prec emax Hp He recover cdiv Hrec).
Notation acc_big := (caccurate_bigsum prec emax Hp He recover cdiv Hrec).
Notation acc2_sum := (caccurate2_sum prec emax Hp He recover cdiv Hrec).
Local Open Scope nat_scope.

Lemma dot_complex : forall (m : mem C) x y f g (init : C),
  vext x = vext y -> vec_holds m x f -> vec_holds m y g ->
  succeeds (dot x y init) m (fun r m' => caccurate (vext x + 2) (vext x) init f g r /\ m' = m).
Proof.
  intros. eapply wp_conseq; [apply (@dot_ok C) ; eauto; try (apply cconj_conj); try discriminate|]. intros r m' [-> ->]. split; auto.
  exact (acc_sum (vext x) init f g).
Qed.
Lemma dotc_complex : forall (m : mem C) fix_nc x y f g (init : C),
  vext x = vext y -> vec_holds m x f -> vec_holds m y g ->
  succeeds (dotc fix_nc false x y init) m (fun r m' => caccurate (vext x + 2) (vext x) init (fun k => conj_of (f k)) g r /\ m' = m).
Proof.
  intros. eapply wp_conseq; [apply (@dotc_ok C) with (nc := false) ; eauto; try (apply cconj_conj); try discriminate|]. intros r m' [-> ->]. split; auto.
  exact (acc_sum (vext x) init (fun k => conj_of (f k)) g).
Qed.
Lemma gemv_complex : forall (m : mem C) A x y a f,
  vext x = ext1 A -> vext y = ext0 A -> mat_holds m A a -> vec_holds m x f -> vwritable y ->
  allocated m (vcells y) -> disjoint (mcells A) (vcells y) -> disjoint (vcells x) (vcells y) ->
  succeeds (matrix_vector_product A x y) m (fun _ m' =>
    (exists r, vec_holds m' y r /\ forall i, i < vext y -> caccurate (ext1 A + 1) (ext1 A) (@zero C) (a i) f (r i)) /\
    changes_only m m' (vcells y)).
Proof.
  intros. eapply wp_conseq; [apply (@gemv_ok C) ; eauto; try (apply cconj_conj); try discriminate|]. intros [] m' [K1 K2]. split; auto.
  eexists; split; [exact K1|]. intros i _. exact (acc_big (ext1 A) (a i) f).
Qed.
Lemma gemv_upd_complex : forall (m : mem C) A x y z a f g,
  vext x = ext1 A -> vext y = ext0 A -> vext z = ext0 A -> mat_holds m A a -> vec_holds m x f -> vec_holds m y g ->
  vwritable z -> allocated m (vcells z) -> disjoint (mcells A) (vcells z) -> disjoint (vcells x) (vcells z) ->
  disjoint_or_aligned_v y z ->
  succeeds (matrix_vector_product_upd A x y z) m (fun _ m' =>
    (exists r, vec_holds m' z r /\ forall i, i < vext z -> caccurate (ext1 A + 2) (ext1 A) (g i) (a i) f (r i)) /\
    changes_only m m' (vcells z)).
Proof.
  intros. eapply wp_conseq; [apply (@gemv_upd_ok C) with (g := g) ; eauto; try (apply cconj_conj); try discriminate|]. intros [] m' [K1 K2]. split; auto.
  eexists; split; [exact K1|]. intros i _. exact (acc_sum (ext1 A) (g i) (a i) f).
Qed.
Lemma gemm_complex : forall (m : mem C) A B C0 a b,
  ext0 C0 = ext0 A -> ext1 A = ext0 B -> ext1 C0 = ext1 B -> mat_holds m A a -> mat_holds m B b -> mwritable C0 ->
  allocated m (mcells C0) -> disjoint (mcells A) (mcells C0) -> disjoint (mcells B) (mcells C0) ->
  succeeds (matrix_product A B C0) m (fun _ m' =>
    (exists r, mat_holds m' C0 r /\ forall i j, i < ext0 C0 -> j < ext1 C0 ->
       caccurate (ext1 A + 1) (ext1 A) (@zero C) (a i) (fun k => b k j) (r i j)) /\
    changes_only m m' (mcells C0)).
Proof.
  intros. eapply wp_conseq; [apply (@gemm_ok C) ; eauto; try (apply cconj_conj); try discriminate|]. intros [] m' [K1 K2]. split; auto.
  eexists; split; [exact K1|]. intros i j _ _. exact (acc_big (ext1 A) (a i) (fun k => b k j)).
Qed.
Lemma gemm_upd_complex : forall (m : mem C) A B E C0 a b e,
  ext0 C0 = ext0 A -> ext1 A = ext0 B -> ext1 C0 = ext1 B -> ext0 E = ext0 C0 -> ext1 E = ext1 C0 ->
  mat_holds m A a -> mat_holds m B b -> mat_holds m E e -> mwritable C0 -> allocated m (mcells C0) ->
  disjoint (mcells A) (mcells C0) -> disjoint (mcells B) (mcells C0) -> disjoint_or_aligned_m E C0 ->
  succeeds (matrix_product_upd A B E C0) m (fun _ m' =>
    (exists r, mat_holds m' C0 r /\ forall i j, i < ext0 C0 -> j < ext1 C0 ->
       caccurate (ext1 A + 2) (ext1 A) (e i j) (a i) (fun k => b k j) (r i j)) /\
    changes_only m m' (mcells C0)).
Proof.
  intros. eapply wp_conseq; [apply (@gemm_upd_ok C) with (e := e) ; eauto; try (apply cconj_conj); try discriminate|]. intros [] m' [K1 K2]. split; auto.
  eexists; split; [exact K1|]. intros i j _ _. exact (acc_sum (ext1 A) (e i j) (a i) (fun k => b k j)).
Qed.
Lemma hemv_complex : forall (m : mem C) A t x y a f,
  ext0 A = ext1 A -> vext x = ext1 A -> vext y = ext0 A -> mat_holds_on m A (in_tri t) a -> vec_holds m x f ->
  vwritable y -> allocated m (vcells y) -> disjoint (mcells_on A (in_tri t)) (vcells y) ->
  disjoint (vcells x) (vcells y) ->
  succeeds (hermitian_matrix_vector_product A t x y) m (fun _ m' =>
    (exists r, vec_holds m' y r /\ forall i, i < vext y -> caccurate (ext1 A + 1) (ext1 A) (@zero C) (@herm_of C t a i) f (r i)) /\
    changes_only m m' (vcells y)).
Proof.
  intros. eapply wp_conseq; [apply (@hemv_ok C) ; eauto; try (apply cconj_conj); try discriminate|]. intros [] m' [K1 K2]. split; auto.
  eexists; split; [exact K1|]. intros i _. exact (acc_big (ext1 A) (@herm_of C t a i) f).
Qed.
Lemma hemv_upd_complex : forall (m : mem C) A t x y z a f g,
  ext0 A = ext1 A -> vext x = ext1 A -> vext y = ext0 A -> vext z = ext0 A -> mat_holds_on m A (in_tri t) a ->
  vec_holds m x f -> vec_holds m y g -> vwritable z -> allocated m (vcells z) ->
  disjoint (mcells_on A (in_tri t)) (vcells z) -> disjoint (vcells x) (vcells z) -> disjoint_or_aligned_v y z ->
  succeeds (hermitian_matrix_vector_product_upd A t x y z) m (fun _ m' =>
    (exists r, vec_holds m' z r /\ forall i, i < vext z -> caccurate (ext1 A + 2) (ext1 A) (g i) (@herm_of C t a i) f (r i)) /\
    changes_only m m' (vcells z)).
Proof.
  intros. eapply wp_conseq; [apply (@hemv_upd_ok C) with (g := g) ; eauto; try (apply cconj_conj); try discriminate|]. intros [] m' [K1 K2]. split; auto.
  eexists; split; [exact K1|]. intros i _. exact (acc_sum (ext1 A) (g i) (@herm_of C t a i) f).
Qed.
Lemma symv_complex : forall (m : mem C) A t x y a f,
  ext0 A = ext1 A -> vext x = ext1 A -> vext y = ext0 A -> mat_holds_on m A (in_tri t) a -> vec_holds m x f ->
  vwritable y -> allocated m (vcells y) -> disjoint (mcells_on A (in_tri t)) (vcells y) ->
  disjoint (vcells x) (vcells y) ->
  succeeds (symmetric_matrix_vector_product A t x y) m (fun _ m' =>
    (exists r, vec_holds m' y r /\ forall i, i < vext y -> caccurate (ext1 A + 1) (ext1 A) (@zero C) (@sym_of C t a i) f (r i)) /\
    changes_only m m' (vcells y)).
Proof.
  intros. eapply wp_conseq; [apply (@symv_ok C) ; eauto; try (apply cconj_conj); try discriminate|]. intros [] m' [K1 K2]. split; auto.
  eexists; split; [exact K1|]. intros i _. exact (acc_big (ext1 A) (@sym_of C t a i) f).
Qed.
Lemma hemm_left_complex : forall (m : mem C) A t B C0 a b,
  ext0 A = ext1 A -> ext0 C0 = ext0 A -> ext1 A = ext0 B -> ext1 C0 = ext1 B -> mat_holds_on m A (in_tri t) a ->
  mat_holds m B b -> mwritable C0 -> allocated m (mcells C0) -> disjoint (mcells_on A (in_tri t)) (mcells C0) ->
  disjoint (mcells B) (mcells C0) ->
  succeeds (hermitian_matrix_product_left A t B C0) m (fun _ m' =>
    (exists r, mat_holds m' C0 r /\ forall i j, i < ext0 C0 -> j < ext1 C0 ->
       caccurate (ext1 A + 1) (ext1 A) (@zero C) (@herm_of C t a i) (fun k => b k j) (r i j)) /\
    changes_only m m' (mcells C0)).
Proof.
  intros. eapply wp_conseq; [apply (@hemm_left_ok C) ; eauto; try (apply cconj_conj); try discriminate|]. intros [] m' [K1 K2]. split; auto.
  eexists; split; [exact K1|]. intros i j _ _. exact (acc_big (ext1 A) (@herm_of C t a i) (fun k => b k j)).
Qed.
Lemma ger_complex : forall (m : mem C) x y A a f g,
  vext x = ext0 A -> vext y = ext1 A -> mat_holds m A a -> vec_holds m x f -> vec_holds m y g -> mwritable A ->
  disjoint (vcells x) (mcells A) -> disjoint (vcells y) (mcells A) ->
  succeeds (matrix_rank_1_update x y A) m (fun _ m' =>
    (exists r, mat_holds m' A r /\ forall i j, i < ext0 A -> j < ext1 A ->
       caccurate 3 1 (a i j) (fun _ => f i) (fun _ => g j) (r i j)) /\
    changes_only m m' (mcells A)).
Proof.
  intros. eapply wp_conseq; [apply (@ger_ok C) ; eauto; try (apply cconj_conj); try discriminate|]. intros [] m' [K1 K2]. split; auto.
  eexists; split; [exact K1|]. intros i j _ _. exact (acc_sum 1 (a i j) (fun _ => f i) (fun _ => g j)).
Qed.
Lemma gerc_complex : forall (m : mem C) fix_nc x y A a f g,
  vext x = ext0 A -> vext y = ext1 A -> mat_holds m A a -> vec_holds m x f -> vec_holds m y g -> mwritable A ->
  disjoint (vcells x) (mcells A) -> disjoint (vcells y) (mcells A) ->
  succeeds (matrix_rank_1_update_c fix_nc false x y A) m (fun _ m' =>
    (exists r, mat_holds m' A r /\ forall i j, i < ext0 A -> j < ext1 A ->
       caccurate 3 1 (a i j) (fun _ => f i) (fun _ => conj_of (g j)) (r i j)) /\
    changes_only m m' (mcells A)).
Proof.
  intros. eapply wp_conseq; [apply (@gerc_ok C) with (nc := false) ; eauto; try (apply cconj_conj); try discriminate|]. intros [] m' [K1 K2]. split; auto.
  eexists; split; [exact K1|]. intros i j _ _. exact (acc_sum 1 (a i j) (fun _ => f i) (fun _ => conj_of (g j))).
Qed.
Lemma her_complex : forall (m : mem C) x A t a f,
  ext0 A = ext1 A -> vext x = ext0 A -> mat_holds_on m A (in_tri t) a -> vec_holds m x f ->
  mwritable_on A (in_tri t) -> disjoint (vcells x) (mcells_on A (in_tri t)) ->
  succeeds (hermitian_matrix_rank_1_update x A t) m (fun _ m' =>
    (exists r, mat_holds_on m' A (in_tri t) r /\ forall i j, i < ext0 A -> j < ext1 A -> in_tri t i j ->
       caccurate 3 1 (@herm_of C t a i j) (fun _ => f i) (fun _ => conj_of (f j)) (r i j)) /\
    changes_only m m' (mcells_on A (in_tri t))).
Proof.
  intros. eapply wp_conseq; [apply (@her_ok C) ; eauto; try (apply cconj_conj); try discriminate|]. intros [] m' [K1 K2]. split; auto.
  eexists; split; [exact K1|]. intros i j _ _ _. exact (acc_sum 1 (@herm_of C t a i j) (fun _ => f i) (fun _ => conj_of (f j))).
Qed.
Lemma her2_complex : forall (m : mem C) x y A t a f g,
  ext0 A = ext1 A -> vext x = ext0 A -> vext y = ext0 A -> mat_holds_on m A (in_tri t) a -> vec_holds m x f ->
  vec_holds m y g -> mwritable_on A (in_tri t) -> disjoint (vcells x) (mcells_on A (in_tri t)) ->
  disjoint (vcells y) (mcells_on A (in_tri t)) ->
  succeeds (hermitian_matrix_rank_2_update x y A t) m (fun _ m' =>
    (exists r, mat_holds_on m' A (in_tri t) r /\ forall i j, i < ext0 A -> j < ext1 A -> in_tri t i j ->
       caccurate2 4 1 (@herm_of C t a i j) (fun _ => f i) (fun _ => conj_of (g j)) (fun _ => g i) (fun _ => conj_of (f j)) (r i j)) /\
    changes_only m m' (mcells_on A (in_tri t))).
Proof.
  intros. eapply wp_conseq; [apply (@her2_ok C) ; eauto; try (apply cconj_conj); try discriminate|]. intros [] m' [K1 K2]. split; auto.
  eexists; split; [exact K1|]. intros i j _ _ _. exact (acc2_sum 1 (@herm_of C t a i j) (fun _ => f i) (fun _ => conj_of (g j)) (fun _ => g i) (fun _ => conj_of (f j))).
Qed.
Lemma herk_complex : forall (m : mem C) A C0 t a c,
  ext0 C0 = ext1 C0 -> ext0 A = ext0 C0 -> mat_holds m A a -> mat_holds_on m C0 (in_tri t) c ->
  mwritable_on C0 (in_tri t) -> disjoint (mcells A) (mcells_on C0 (in_tri t)) ->
  succeeds (hermitian_matrix_rank_k_update A C0 t) m (fun _ m' =>
    (exists r, mat_holds_on m' C0 (in_tri t) r /\ forall i j, i < ext0 C0 -> j < ext1 C0 -> in_tri t i j ->
       caccurate (ext1 A + 2) (ext1 A) (@herm_of C t c i j) (a i) (fun k => conj_of (a j k)) (r i j)) /\
    changes_only m m' (mcells_on C0 (in_tri t))).
Proof.
  intros. eapply wp_conseq; [apply (@herk_ok C) with (c := c) ; eauto; try (apply cconj_conj); try discriminate|]. intros [] m' [K1 K2]. split; auto.
  eexists; split; [exact K1|]. intros i j _ _ _. exact (acc_sum (ext1 A) (@herm_of C t c i j) (a i) (fun k => conj_of (a j k))).
Qed.
Lemma her2k_complex : forall (m : mem C) A B C0 t a b c,
  ext0 C0 = ext1 C0 -> ext0 A = ext0 C0 -> ext0 B = ext0 C0 -> ext1 B = ext1 A -> mat_holds m A a ->
  mat_holds m B b -> mat_holds_on m C0 (in_tri t) c -> mwritable_on C0 (in_tri t) ->
  disjoint (mcells A) (mcells_on C0 (in_tri t)) -> disjoint (mcells B) (mcells_on C0 (in_tri t)) ->
  succeeds (hermitian_matrix_rank_2k_update A B C0 t) m (fun _ m' =>
    (exists r, mat_holds_on m' C0 (in_tri t) r /\ forall i j, i < ext0 C0 -> j < ext1 C0 -> in_tri t i j ->
       caccurate2 (ext1 A + 3) (ext1 A) (@herm_of C t c i j) (a i) (fun k => conj_of (b j k)) (b i) (fun k => conj_of (a j k)) (r i j)) /\
    changes_only m m' (mcells_on C0 (in_tri t))).
Proof.
  intros. eapply wp_conseq; [apply (@her2k_ok C) with (c := c) ; eauto; try (apply cconj_conj); try discriminate|]. intros [] m' [K1 K2]. split; auto.
  eexists; split; [exact K1|]. intros i j _ _ _. exact (acc2_sum (ext1 A) (@herm_of C t c i j) (a i) (fun k => conj_of (b j k)) (b i) (fun k => conj_of (a j k))).
Qed.
End ComplexOps.

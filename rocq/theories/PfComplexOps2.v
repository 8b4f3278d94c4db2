(** Error bounds of the remaining products and updates in complex floating-point arithmetic. *)
From Coq Require Import List Arith ZArith Reals Lia Lra Bool.
From Flocq Require Import Core.Core IEEE754.BinarySingleNaN.
From Verif Require Import Mem Scalar View Spec SpecR SpecF SpecC SpecC2 Idx Wp Loops Sums Norm Ieee IeeeC Blas1 Blas2 Blas3
  PfBlas1 PfBlas2 PfRank PfBlas3 PfComplex.

Section ComplexOps2.
Context (prec emax : Z) (Hp : Prec_gt_0 prec) (He : Prec_lt_emax prec emax).
Variables recover cdiv : cfl prec emax -> cfl prec emax -> cfl prec emax.
Hypothesis Hrec : forall x y, ~ cfin (recover x y).
Notation C := (ieee_c prec emax Hp He recover cdiv).
Notation acc_sum := (caccurate_sum prec emax Hp He recover cdiv Hrec).
Notation acc_big := (caccurate_bigsum prec emax Hp He recover cdiv Hrec).
Notation acc2_sum := (caccurate2_sum prec emax Hp He recover cdiv Hrec).
Local Open Scope nat_scope.
Lemma mul_cproduct : forall x y : C, cproduct x y (@mul C x y).
Proof. intros. eapply cap_spec. apply (capp_prod prec emax Hp He recover cdiv Hrec). Qed.

Lemma symv_upd_complex : forall (m : mem C) A t x y z a f g,
  ext0 A = ext1 A -> vext x = ext1 A -> vext y = ext0 A -> vext z = ext0 A -> mat_holds_on m A (in_tri t) a ->
  vec_holds m x f -> vec_holds m y g -> vwritable z -> allocated m (vcells z) ->
  disjoint (mcells_on A (in_tri t)) (vcells z) -> disjoint (vcells x) (vcells z) -> disjoint_or_aligned_v y z ->
  succeeds (symmetric_matrix_vector_product_upd A t x y z) m (fun _ m' =>
    (exists r, vec_holds m' z r /\ forall i, i < vext z ->
       caccurate (ext1 A + 2) (ext1 A) (g i) (fun k => csym_of t a i k) f (r i)) /\
    changes_only m m' (vcells z)).
Proof.
  intros. eapply wp_conseq; [apply (@symv_upd_ok C) with (g := g); eauto|]. intros [] m' [K1 K2]. split; auto.
  eexists; split; [exact K1|]. intros i _. exact (acc_sum (ext1 A) (g i) (fun k => csym_of t a i k) f).
Qed.
Lemma symm_left_complex : forall (m : mem C) A t B C0 a b,
  ext0 A = ext1 A -> ext0 C0 = ext0 A -> ext1 A = ext0 B -> ext1 C0 = ext1 B -> mat_holds_on m A (in_tri t) a ->
  mat_holds m B b -> mwritable C0 -> allocated m (mcells C0) -> disjoint (mcells_on A (in_tri t)) (mcells C0) ->
  disjoint (mcells B) (mcells C0) ->
  succeeds (symmetric_matrix_product_left A t B C0) m (fun _ m' =>
    (exists r, mat_holds m' C0 r /\ forall i j, i < ext0 C0 -> j < ext1 C0 ->
       caccurate (ext1 A + 1) (ext1 A) czero (fun k => csym_of t a i k) (fun k => b k j) (r i j)) /\
    changes_only m m' (mcells C0)).
Proof.
  intros. eapply wp_conseq; [apply (@symm_left_ok C); eauto|]. intros [] m' [K1 K2]. split; auto.
  eexists; split; [exact K1|]. intros i j _ _. exact (acc_big (ext1 A) (fun k => csym_of t a i k) (fun k => b k j)).
Qed.
Lemma symm_right_complex : forall (m : mem C) B A t C0 a b,
  ext0 A = ext1 A -> ext0 C0 = ext0 B -> ext1 B = ext0 A -> ext1 C0 = ext1 A -> mat_holds_on m A (in_tri t) a ->
  mat_holds m B b -> mwritable C0 -> allocated m (mcells C0) -> disjoint (mcells_on A (in_tri t)) (mcells C0) ->
  disjoint (mcells B) (mcells C0) ->
  succeeds (symmetric_matrix_product_right B A t C0) m (fun _ m' =>
    (exists r, mat_holds m' C0 r /\ forall i j, i < ext0 C0 -> j < ext1 C0 ->
       caccurate (ext1 A + 1) (ext1 A) czero (b i) (fun k => csym_of t a k j) (r i j)) /\
    changes_only m m' (mcells C0)).
Proof.
  intros. eapply wp_conseq; [apply (@symm_right_ok C); eauto|]. intros [] m' [K1 K2]. split; auto.
  eexists; split; [exact K1|]. intros i j _ _. exact (acc_big (ext1 A) (b i) (fun k => csym_of t a k j)).
Qed.
Lemma hemm_right_complex : forall (m : mem C) B A t C0 a b,
  ext0 A = ext1 A -> ext0 C0 = ext0 B -> ext1 B = ext0 A -> ext1 C0 = ext1 A -> mat_holds_on m A (in_tri t) a ->
  mat_holds m B b -> mwritable C0 -> allocated m (mcells C0) -> disjoint (mcells_on A (in_tri t)) (mcells C0) ->
  disjoint (mcells B) (mcells C0) ->
  succeeds (hermitian_matrix_product_right B A t C0) m (fun _ m' =>
    (exists r, mat_holds m' C0 r /\ forall i j, i < ext0 C0 -> j < ext1 C0 ->
       caccurate (ext1 A + 1) (ext1 A) czero (b i) (fun k => if in_tri_b t k j then a k j else conj_of (a j k)) (r i j)) /\
    changes_only m m' (mcells C0)).
Proof.
  intros. eapply wp_conseq; [apply (@hemm_right_ok C); eauto|]. intros [] m' [K1 K2]. split; auto.
  eexists; split; [exact K1|]. intros i j _ _. exact (acc_big (ext1 A) (b i) (fun k => if in_tri_b t k j then a k j else conj_of (a j k))).
Qed.
Lemma syr_complex : forall (m : mem C) x A t a f,
  ext0 A = ext1 A -> vext x = ext0 A -> mat_holds_on m A (in_tri t) a -> vec_holds m x f ->
  mwritable_on A (in_tri t) -> disjoint (vcells x) (mcells_on A (in_tri t)) ->
  succeeds (symmetric_matrix_rank_1_update x A t) m (fun _ m' =>
    (exists r, mat_holds_on m' A (in_tri t) r /\ forall i j, i < ext0 A -> j < ext1 A -> in_tri t i j ->
       caccurate 3 1 (a i j) (fun _ => f i) (fun _ => f j) (r i j)) /\
    changes_only m m' (mcells_on A (in_tri t))).
Proof.
  intros. eapply wp_conseq; [apply (@syr_ok C); eauto|]. intros [] m' [K1 K2]. split; auto.
  eexists; split; [exact K1|]. intros i j _ _ _. exact (acc_sum 1 (a i j) (fun _ => f i) (fun _ => f j)).
Qed.
Lemma syr2_complex : forall (m : mem C) x y A t a f g,
  ext0 A = ext1 A -> vext x = ext0 A -> vext y = ext0 A -> mat_holds_on m A (in_tri t) a -> vec_holds m x f ->
  vec_holds m y g -> mwritable_on A (in_tri t) -> disjoint (vcells x) (mcells_on A (in_tri t)) ->
  disjoint (vcells y) (mcells_on A (in_tri t)) ->
  succeeds (symmetric_matrix_rank_2_update x y A t) m (fun _ m' =>
    (exists r, mat_holds_on m' A (in_tri t) r /\ forall i j, i < ext0 A -> j < ext1 A -> in_tri t i j ->
       caccurate2 4 1 (a i j) (fun _ => f i) (fun _ => g j) (fun _ => g i) (fun _ => f j) (r i j)) /\
    changes_only m m' (mcells_on A (in_tri t))).
Proof.
  intros. eapply wp_conseq; [apply (@syr2_ok C); eauto|]. intros [] m' [K1 K2]. split; auto.
  eexists; split; [exact K1|]. intros i j _ _ _. exact (acc2_sum 1 (a i j) (fun _ => f i) (fun _ => g j) (fun _ => g i) (fun _ => f j)).
Qed.
Lemma syrk_complex : forall (m : mem C) A C0 t a c,
  ext0 C0 = ext1 C0 -> ext0 A = ext0 C0 -> mat_holds m A a -> mat_holds_on m C0 (in_tri t) c ->
  mwritable_on C0 (in_tri t) -> disjoint (mcells A) (mcells_on C0 (in_tri t)) ->
  succeeds (symmetric_matrix_rank_k_update A C0 t) m (fun _ m' =>
    (exists r, mat_holds_on m' C0 (in_tri t) r /\ forall i j, i < ext0 C0 -> j < ext1 C0 -> in_tri t i j ->
       caccurate (ext1 A + 2) (ext1 A) (c i j) (a i) (a j) (r i j)) /\
    changes_only m m' (mcells_on C0 (in_tri t))).
Proof.
  intros. eapply wp_conseq; [apply (@syrk_ok C) with (c := c); eauto|]. intros [] m' [K1 K2]. split; auto.
  eexists; split; [exact K1|]. intros i j _ _ _. exact (acc_sum (ext1 A) (c i j) (a i) (a j)).
Qed.
Lemma syr2k_complex : forall (m : mem C) A B C0 t a b c,
  ext0 C0 = ext1 C0 -> ext0 A = ext0 C0 -> ext0 B = ext0 C0 -> ext1 B = ext1 A -> mat_holds m A a ->
  mat_holds m B b -> mat_holds_on m C0 (in_tri t) c -> mwritable_on C0 (in_tri t) ->
  disjoint (mcells A) (mcells_on C0 (in_tri t)) -> disjoint (mcells B) (mcells_on C0 (in_tri t)) ->
  succeeds (symmetric_matrix_rank_2k_update A B C0 t) m (fun _ m' =>
    (exists r, mat_holds_on m' C0 (in_tri t) r /\ forall i j, i < ext0 C0 -> j < ext1 C0 -> in_tri t i j ->
       caccurate2 (ext1 A + 3) (ext1 A) (c i j) (a i) (b j) (b i) (a j) (r i j)) /\
    changes_only m m' (mcells_on C0 (in_tri t))).
Proof.
  intros. eapply wp_conseq; [apply (@syr2k_ok C) with (c := c); eauto|]. intros [] m' [K1 K2]. split; auto.
  eexists; split; [exact K1|]. intros i j _ _ _. exact (acc2_sum (ext1 A) (c i j) (a i) (b j) (b i) (a j)).
Qed.
Lemma syr_alpha_complex : forall (m : mem C) (alpha : C) x A t a f,
  ext0 A = ext1 A -> vext x = ext0 A -> mat_holds_on m A (in_tri t) a -> vec_holds m x f ->
  mwritable_on A (in_tri t) -> disjoint (vcells x) (mcells_on A (in_tri t)) ->
  succeeds (symmetric_matrix_rank_1_update_alpha alpha x A t) m (fun _ m' =>
    (exists r w, mat_holds_on m' A (in_tri t) r /\ (forall i, cproduct alpha (f i) (w i)) /\
       forall i j, i < ext0 A -> j < ext1 A -> in_tri t i j ->
       caccurate 3 1 (a i j) (fun _ => w i) (fun _ => f j) (r i j)) /\
    changes_only m m' (mcells_on A (in_tri t))).
Proof.
  intros. eapply wp_conseq; [apply (@syr_alpha_ok C); eauto|]. intros [] m' [K1 K2]. split; auto.
  eexists; exists (fun i => @mul C alpha (f i)); split; [exact K1|]. split; [intros; apply mul_cproduct|].
  intros i j _ _ _. exact (acc_sum 1 (a i j) (fun _ => @mul C alpha (f i)) (fun _ => f j)).
Qed.
Lemma her_alpha_complex : forall (m : mem C) (alpha : C) x A t a f,
  ext0 A = ext1 A -> vext x = ext0 A -> mat_holds_on m A (in_tri t) a -> vec_holds m x f ->
  mwritable_on A (in_tri t) -> disjoint (vcells x) (mcells_on A (in_tri t)) ->
  succeeds (hermitian_matrix_rank_1_update_alpha alpha x A t) m (fun _ m' =>
    (exists r w, mat_holds_on m' A (in_tri t) r /\ (forall i, cproduct alpha (f i) (w i)) /\
       forall i j, i < ext0 A -> j < ext1 A -> in_tri t i j ->
       caccurate 3 1 (cherm_of t a i j) (fun _ => w i) (fun _ => conj_of (f j)) (r i j)) /\
    changes_only m m' (mcells_on A (in_tri t))).
Proof.
  intros. eapply wp_conseq; [apply (@her_alpha_ok C); eauto|]. intros [] m' [K1 K2]. split; auto.
  eexists; exists (fun i => @mul C alpha (f i)); split; [exact K1|]. split; [intros; apply mul_cproduct|].
  intros i j _ _ _. exact (acc_sum 1 (cherm_of t a i j) (fun _ => @mul C alpha (f i)) (fun _ => conj_of (f j))).
Qed.
Lemma syrk_alpha_complex : forall (m : mem C) (alpha : C) A C0 t a c,
  ext0 C0 = ext1 C0 -> ext0 A = ext0 C0 -> mat_holds m A a -> mat_holds_on m C0 (in_tri t) c ->
  mwritable_on C0 (in_tri t) -> disjoint (mcells A) (mcells_on C0 (in_tri t)) ->
  succeeds (symmetric_matrix_rank_k_update_alpha alpha A C0 t) m (fun _ m' =>
    (exists r w, mat_holds_on m' C0 (in_tri t) r /\ (forall i k, cproduct alpha (a i k) (w i k)) /\
       forall i j, i < ext0 C0 -> j < ext1 C0 -> in_tri t i j ->
       caccurate (ext1 A + 2) (ext1 A) (c i j) (w i) (a j) (r i j)) /\
    changes_only m m' (mcells_on C0 (in_tri t))).
Proof.
  intros. eapply wp_conseq; [apply (@syrk_alpha_ok C) with (c := c); eauto|]. intros [] m' [K1 K2]. split; auto.
  eexists; exists (fun i k => @mul C alpha (a i k)); split; [exact K1|]. split; [intros; apply mul_cproduct|].
  intros i j _ _ _. exact (acc_sum (ext1 A) (c i j) (fun k => @mul C alpha (a i k)) (a j)).
Qed.
Lemma herk_alpha_complex : forall (m : mem C) (alpha : C) A C0 t a c,
  ext0 C0 = ext1 C0 -> ext0 A = ext0 C0 -> mat_holds m A a -> mat_holds_on m C0 (in_tri t) c ->
  mwritable_on C0 (in_tri t) -> disjoint (mcells A) (mcells_on C0 (in_tri t)) ->
  succeeds (hermitian_matrix_rank_k_update_alpha alpha A C0 t) m (fun _ m' =>
    (exists r w, mat_holds_on m' C0 (in_tri t) r /\ (forall i k, cproduct alpha (a i k) (w i k)) /\
       forall i j, i < ext0 C0 -> j < ext1 C0 -> in_tri t i j ->
       caccurate (ext1 A + 2) (ext1 A) (cherm_of t c i j) (w i) (fun k => conj_of (a j k)) (r i j)) /\
    changes_only m m' (mcells_on C0 (in_tri t))).
Proof.
  intros. eapply wp_conseq; [apply (@herk_alpha_ok C) with (c := c); eauto|]. intros [] m' [K1 K2]. split; auto.
  eexists; exists (fun i k => @mul C alpha (a i k)); split; [exact K1|]. split; [intros; apply mul_cproduct|].
  intros i j _ _ _. exact (acc_sum (ext1 A) (cherm_of t c i j) (fun k => @mul C alpha (a i k)) (fun k => conj_of (a j k))).
Qed.
End ComplexOps2.

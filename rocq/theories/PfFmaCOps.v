(** Error bounds of the algorithms in contracted complex arithmetic (after PfComplexOps.v, PfComplexOps2.v). *)
From Coq Require Import List Arith ZArith Reals Lia Lra Bool.
From Flocq Require Import Core.Core IEEE754.BinarySingleNaN.
From Verif Require Import Mem Scalar View Spec SpecR SpecF SpecC SpecC2 Idx Wp Loops Sums Norm Ieee Fma SpecFma FmaC SpecFmaC Blas1 Blas2 Blas3
  PfBlas1 PfBlas2 PfRank PfBlas3 PfComplex PfFmaC.

Section FmaCOps.
Context (prec emax : Z) (Hp : Prec_gt_0 prec) (He : Prec_lt_emax prec emax).
Notation F := (fma_ops prec emax Hp He).
Notation C := (fma_cx_ops prec emax Hp He).
Notation cfl := (binary_float prec emax * binary_float prec emax)%type.
Notation ce := (@cexactly prec emax Hp He).
Local Open Scope nat_scope.
Lemma cexact_herm : forall t (a : nat -> nat -> cfl) i k, is_cexact prec emax Hp He (cherm_of t a i k) (@herm_of C t (fun i j => ce (a i j)) i k).
Proof.
  intros. unfold cherm_of, herm_of. destruct (Nat.eqb i k); [|destruct (in_tri_b t i k)].
  - apply (cexact_re prec emax Hp He). apply cexact_ex.
  - apply cexact_ex.
  - apply (cexact_conj prec emax Hp He). apply cexact_ex.
Qed.
Lemma cexact_sym : forall t (a : nat -> nat -> cfl) i k, is_cexact prec emax Hp He (csym_of t a i k) (@sym_of C t (fun i j => ce (a i j)) i k).
Proof. intros. unfold csym_of, sym_of. destruct (in_tri_b t i k); apply cexact_ex. Qed.
Lemma cexact_half : forall t (a : nat -> nat -> cfl) i k, is_cexact prec emax Hp He (if in_tri_b t i k then a i k else conj_of (a k i))
  (if in_tri_b t i k then ce (a i k) else @conj C (ce (a k i))).
Proof. intros. destruct (in_tri_b t i k); [apply cexact_ex|]. apply (cexact_conj prec emax Hp He). apply cexact_ex. Qed.
Ltac ex := intros; first [apply cexact_ex|apply cexact_herm|apply cexact_sym|apply cexact_half|apply (cexact_conj prec emax Hp He), cexact_ex].

Lemma dot_cfma : forall (m : mem C) x y (f : nat -> cfl) (g : nat -> cfl) (init : cfl),
  vext x = vext y -> vec_holds m x (fun i => ce (f i)) -> vec_holds m y (fun i => ce (g i)) ->
  succeeds (dot x y (ce init : C)) m (fun r m' => all_cvalues r (caccurate (vext x + 2) (vext x) init f g) /\ m' = m).
Proof.
  intros. eapply wp_conseq; [apply (@dot_ok C); eauto; try (apply conj_twice); try discriminate|]. intros r m' [-> ->]. split; auto.
  apply (acc_sum prec emax Hp He); ex.
Qed.
Lemma dotc_cfma : forall (m : mem C) fix_nc x y (f : nat -> cfl) (g : nat -> cfl) (init : cfl),
  vext x = vext y -> vec_holds m x (fun i => ce (f i)) -> vec_holds m y (fun i => ce (g i)) ->
  succeeds (dotc fix_nc false x y (ce init : C)) m (fun r m' => all_cvalues r (caccurate (vext x + 2) (vext x) init (fun k => conj_of (f k)) g) /\ m' = m).
Proof.
  intros. eapply wp_conseq; [apply (@dotc_ok C) with (nc := false); eauto; try (apply conj_twice); try discriminate|]. intros r m' [-> ->]. split; auto.
  apply (acc_sum prec emax Hp He); ex.
Qed.
Lemma gemv_cfma : forall (m : mem C) A x y (a : nat -> nat -> cfl) (f : nat -> cfl),
  vext x = ext1 A -> vext y = ext0 A -> mat_holds m A (fun i j => ce (a i j)) -> vec_holds m x (fun i => ce (f i)) -> vwritable y ->
  allocated m (vcells y) -> disjoint (mcells A) (vcells y) -> disjoint (vcells x) (vcells y) ->
  succeeds (matrix_vector_product A x y) m (fun _ m' =>
    (exists r, vec_holds m' y r /\ forall i, i < vext y -> all_cvalues (r i) (caccurate (ext1 A + 1) (ext1 A) czero (a i) f)) /\
    changes_only m m' (vcells y)).
Proof.
  intros. eapply wp_conseq; [apply (@gemv_ok C); eauto; try (apply conj_twice); try discriminate|]. intros [] m' [K1 K2]. split; auto.
  eexists; split; [exact K1|]. intros i _. apply (acc_big prec emax Hp He); ex.
Qed.
Lemma gemv_upd_cfma : forall (m : mem C) A x y z (a : nat -> nat -> cfl) (f : nat -> cfl) (g : nat -> cfl),
  vext x = ext1 A -> vext y = ext0 A -> vext z = ext0 A -> mat_holds m A (fun i j => ce (a i j)) -> vec_holds m x (fun i => ce (f i)) -> vec_holds m y (fun i => ce (g i)) ->
  vwritable z -> allocated m (vcells z) -> disjoint (mcells A) (vcells z) -> disjoint (vcells x) (vcells z) ->
  disjoint_or_aligned_v y z ->
  succeeds (matrix_vector_product_upd A x y z) m (fun _ m' =>
    (exists r, vec_holds m' z r /\ forall i, i < vext z -> all_cvalues (r i) (caccurate (ext1 A + 2) (ext1 A) (g i) (a i) f)) /\
    changes_only m m' (vcells z)).
Proof.
  intros. eapply wp_conseq; [apply (@gemv_upd_ok C) with (g := fun i => ce (g i)); eauto; try (apply conj_twice); try discriminate|]. intros [] m' [K1 K2]. split; auto.
  eexists; split; [exact K1|]. intros i _. apply (acc_sum prec emax Hp He); ex.
Qed.
Lemma gemm_cfma : forall (m : mem C) A B C0 (a : nat -> nat -> cfl) (b : nat -> nat -> cfl),
  ext0 C0 = ext0 A -> ext1 A = ext0 B -> ext1 C0 = ext1 B -> mat_holds m A (fun i j => ce (a i j)) -> mat_holds m B (fun i j => ce (b i j)) -> mwritable C0 ->
  allocated m (mcells C0) -> disjoint (mcells A) (mcells C0) -> disjoint (mcells B) (mcells C0) ->
  succeeds (matrix_product A B C0) m (fun _ m' =>
    (exists r, mat_holds m' C0 r /\ forall i j, i < ext0 C0 -> j < ext1 C0 ->
       all_cvalues (r i j) (caccurate (ext1 A + 1) (ext1 A) czero (a i) (fun k => b k j))) /\
    changes_only m m' (mcells C0)).
Proof.
  intros. eapply wp_conseq; [apply (@gemm_ok C); eauto; try (apply conj_twice); try discriminate|]. intros [] m' [K1 K2]. split; auto.
  eexists; split; [exact K1|]. intros i j _ _. apply (acc_big prec emax Hp He); ex.
Qed.
Lemma gemm_upd_cfma : forall (m : mem C) A B E C0 (a : nat -> nat -> cfl) (b : nat -> nat -> cfl) (e : nat -> nat -> cfl),
  ext0 C0 = ext0 A -> ext1 A = ext0 B -> ext1 C0 = ext1 B -> ext0 E = ext0 C0 -> ext1 E = ext1 C0 ->
  mat_holds m A (fun i j => ce (a i j)) -> mat_holds m B (fun i j => ce (b i j)) -> mat_holds m E (fun i j => ce (e i j)) -> mwritable C0 -> allocated m (mcells C0) ->
  disjoint (mcells A) (mcells C0) -> disjoint (mcells B) (mcells C0) -> disjoint_or_aligned_m E C0 ->
  succeeds (matrix_product_upd A B E C0) m (fun _ m' =>
    (exists r, mat_holds m' C0 r /\ forall i j, i < ext0 C0 -> j < ext1 C0 ->
       all_cvalues (r i j) (caccurate (ext1 A + 2) (ext1 A) (e i j) (a i) (fun k => b k j))) /\
    changes_only m m' (mcells C0)).
Proof.
  intros. eapply wp_conseq; [apply (@gemm_upd_ok C) with (e := fun i j => ce (e i j)); eauto; try (apply conj_twice); try discriminate|]. intros [] m' [K1 K2]. split; auto.
  eexists; split; [exact K1|]. intros i j _ _. apply (acc_sum prec emax Hp He); ex.
Qed.
Lemma hemv_cfma : forall (m : mem C) A t x y (a : nat -> nat -> cfl) (f : nat -> cfl),
  ext0 A = ext1 A -> vext x = ext1 A -> vext y = ext0 A -> mat_holds_on m A (in_tri t) (fun i j => ce (a i j)) -> vec_holds m x (fun i => ce (f i)) ->
  vwritable y -> allocated m (vcells y) -> disjoint (mcells_on A (in_tri t)) (vcells y) ->
  disjoint (vcells x) (vcells y) ->
  succeeds (hermitian_matrix_vector_product A t x y) m (fun _ m' =>
    (exists r, vec_holds m' y r /\ forall i, i < vext y -> all_cvalues (r i) (caccurate (ext1 A + 1) (ext1 A) czero (cherm_of t a i) f)) /\
    changes_only m m' (vcells y)).
Proof.
  intros. eapply wp_conseq; [apply (@hemv_ok C); eauto; try (apply conj_twice); try discriminate|]. intros [] m' [K1 K2]. split; auto.
  eexists; split; [exact K1|]. intros i _. apply (acc_big prec emax Hp He); ex.
Qed.
Lemma hemv_upd_cfma : forall (m : mem C) A t x y z (a : nat -> nat -> cfl) (f : nat -> cfl) (g : nat -> cfl),
  ext0 A = ext1 A -> vext x = ext1 A -> vext y = ext0 A -> vext z = ext0 A -> mat_holds_on m A (in_tri t) (fun i j => ce (a i j)) ->
  vec_holds m x (fun i => ce (f i)) -> vec_holds m y (fun i => ce (g i)) -> vwritable z -> allocated m (vcells z) ->
  disjoint (mcells_on A (in_tri t)) (vcells z) -> disjoint (vcells x) (vcells z) -> disjoint_or_aligned_v y z ->
  succeeds (hermitian_matrix_vector_product_upd A t x y z) m (fun _ m' =>
    (exists r, vec_holds m' z r /\ forall i, i < vext z -> all_cvalues (r i) (caccurate (ext1 A + 2) (ext1 A) (g i) (cherm_of t a i) f)) /\
    changes_only m m' (vcells z)).
Proof.
  intros. eapply wp_conseq; [apply (@hemv_upd_ok C) with (g := fun i => ce (g i)); eauto; try (apply conj_twice); try discriminate|]. intros [] m' [K1 K2]. split; auto.
  eexists; split; [exact K1|]. intros i _. apply (acc_sum prec emax Hp He); ex.
Qed.
Lemma symv_cfma : forall (m : mem C) A t x y (a : nat -> nat -> cfl) (f : nat -> cfl),
  ext0 A = ext1 A -> vext x = ext1 A -> vext y = ext0 A -> mat_holds_on m A (in_tri t) (fun i j => ce (a i j)) -> vec_holds m x (fun i => ce (f i)) ->
  vwritable y -> allocated m (vcells y) -> disjoint (mcells_on A (in_tri t)) (vcells y) ->
  disjoint (vcells x) (vcells y) ->
  succeeds (symmetric_matrix_vector_product A t x y) m (fun _ m' =>
    (exists r, vec_holds m' y r /\ forall i, i < vext y -> all_cvalues (r i) (caccurate (ext1 A + 1) (ext1 A) czero (csym_of t a i) f)) /\
    changes_only m m' (vcells y)).
Proof.
  intros. eapply wp_conseq; [apply (@symv_ok C); eauto; try (apply conj_twice); try discriminate|]. intros [] m' [K1 K2]. split; auto.
  eexists; split; [exact K1|]. intros i _. apply (acc_big prec emax Hp He); ex.
Qed.
Lemma hemm_left_cfma : forall (m : mem C) A t B C0 (a : nat -> nat -> cfl) (b : nat -> nat -> cfl),
  ext0 A = ext1 A -> ext0 C0 = ext0 A -> ext1 A = ext0 B -> ext1 C0 = ext1 B -> mat_holds_on m A (in_tri t) (fun i j => ce (a i j)) ->
  mat_holds m B (fun i j => ce (b i j)) -> mwritable C0 -> allocated m (mcells C0) -> disjoint (mcells_on A (in_tri t)) (mcells C0) ->
  disjoint (mcells B) (mcells C0) ->
  succeeds (hermitian_matrix_product_left A t B C0) m (fun _ m' =>
    (exists r, mat_holds m' C0 r /\ forall i j, i < ext0 C0 -> j < ext1 C0 ->
       all_cvalues (r i j) (caccurate (ext1 A + 1) (ext1 A) czero (cherm_of t a i) (fun k => b k j))) /\
    changes_only m m' (mcells C0)).
Proof.
  intros. eapply wp_conseq; [apply (@hemm_left_ok C); eauto; try (apply conj_twice); try discriminate|]. intros [] m' [K1 K2]. split; auto.
  eexists; split; [exact K1|]. intros i j _ _. apply (acc_big prec emax Hp He); ex.
Qed.
Lemma ger_cfma : forall (m : mem C) x y A (a : nat -> nat -> cfl) (f : nat -> cfl) (g : nat -> cfl),
  vext x = ext0 A -> vext y = ext1 A -> mat_holds m A (fun i j => ce (a i j)) -> vec_holds m x (fun i => ce (f i)) -> vec_holds m y (fun i => ce (g i)) -> mwritable A ->
  disjoint (vcells x) (mcells A) -> disjoint (vcells y) (mcells A) ->
  succeeds (matrix_rank_1_update x y A) m (fun _ m' =>
    (exists r, mat_holds m' A r /\ forall i j, i < ext0 A -> j < ext1 A ->
       all_cvalues (r i j) (caccurate 3 1 (a i j) (fun _ => f i) (fun _ => g j))) /\
    changes_only m m' (mcells A)).
Proof.
  intros. eapply wp_conseq; [apply (@ger_ok C); eauto; try (apply conj_twice); try discriminate|]. intros [] m' [K1 K2]. split; auto.
  eexists; split; [exact K1|]. intros i j _ _. apply (acc_sum prec emax Hp He 1 (a i j) (ce (a i j)) (fun _ => f i) (fun _ => g j) (fun _ => ce (f i)) (fun _ => ce (g j))); ex.
Qed.
Lemma gerc_cfma : forall (m : mem C) fix_nc x y A (a : nat -> nat -> cfl) (f : nat -> cfl) (g : nat -> cfl),
  vext x = ext0 A -> vext y = ext1 A -> mat_holds m A (fun i j => ce (a i j)) -> vec_holds m x (fun i => ce (f i)) -> vec_holds m y (fun i => ce (g i)) -> mwritable A ->
  disjoint (vcells x) (mcells A) -> disjoint (vcells y) (mcells A) ->
  succeeds (matrix_rank_1_update_c fix_nc false x y A) m (fun _ m' =>
    (exists r, mat_holds m' A r /\ forall i j, i < ext0 A -> j < ext1 A ->
       all_cvalues (r i j) (caccurate 3 1 (a i j) (fun _ => f i) (fun _ => conj_of (g j)))) /\
    changes_only m m' (mcells A)).
Proof.
  intros. eapply wp_conseq; [apply (@gerc_ok C) with (nc := false); eauto; try (apply conj_twice); try discriminate|]. intros [] m' [K1 K2]. split; auto.
  eexists; split; [exact K1|]. intros i j _ _. apply (acc_sum prec emax Hp He 1 (a i j) (ce (a i j)) (fun _ => f i) (fun _ => conj_of (g j)) (fun _ => ce (f i)) (fun _ => @conj C (ce (g j)))); ex.
Qed.
Lemma her_cfma : forall (m : mem C) x A t (a : nat -> nat -> cfl) (f : nat -> cfl),
  ext0 A = ext1 A -> vext x = ext0 A -> mat_holds_on m A (in_tri t) (fun i j => ce (a i j)) -> vec_holds m x (fun i => ce (f i)) ->
  mwritable_on A (in_tri t) -> disjoint (vcells x) (mcells_on A (in_tri t)) ->
  succeeds (hermitian_matrix_rank_1_update x A t) m (fun _ m' =>
    (exists r, mat_holds_on m' A (in_tri t) r /\ forall i j, i < ext0 A -> j < ext1 A -> in_tri t i j ->
       all_cvalues (r i j) (caccurate 3 1 (cherm_of t a i j) (fun _ => f i) (fun _ => conj_of (f j)))) /\
    changes_only m m' (mcells_on A (in_tri t))).
Proof.
  intros. eapply wp_conseq; [apply (@her_ok C); eauto; try (apply conj_twice); try discriminate|]. intros [] m' [K1 K2]. split; auto.
  eexists; split; [exact K1|]. intros i j _ _ _. apply (acc_sum prec emax Hp He 1 (cherm_of t a i j) (@herm_of C t (fun i j => ce (a i j)) i j) (fun _ => f i) (fun _ => conj_of (f j)) (fun _ => ce (f i)) (fun _ => @conj C (ce (f j)))); ex.
Qed.
Lemma her2_cfma : forall (m : mem C) x y A t (a : nat -> nat -> cfl) (f : nat -> cfl) (g : nat -> cfl),
  ext0 A = ext1 A -> vext x = ext0 A -> vext y = ext0 A -> mat_holds_on m A (in_tri t) (fun i j => ce (a i j)) -> vec_holds m x (fun i => ce (f i)) ->
  vec_holds m y (fun i => ce (g i)) -> mwritable_on A (in_tri t) -> disjoint (vcells x) (mcells_on A (in_tri t)) ->
  disjoint (vcells y) (mcells_on A (in_tri t)) ->
  succeeds (hermitian_matrix_rank_2_update x y A t) m (fun _ m' =>
    (exists r, mat_holds_on m' A (in_tri t) r /\ forall i j, i < ext0 A -> j < ext1 A -> in_tri t i j ->
       all_cvalues (r i j) (caccurate2 4 1 (cherm_of t a i j) (fun _ => f i) (fun _ => conj_of (g j)) (fun _ => g i) (fun _ => conj_of (f j)))) /\
    changes_only m m' (mcells_on A (in_tri t))).
Proof.
  intros. eapply wp_conseq; [apply (@her2_ok C); eauto; try (apply conj_twice); try discriminate|]. intros [] m' [K1 K2]. split; auto.
  eexists; split; [exact K1|]. intros i j _ _ _. apply (acc2_sum prec emax Hp He 1 (cherm_of t a i j) (@herm_of C t (fun i j => ce (a i j)) i j) (fun _ => f i) (fun _ => conj_of (g j)) (fun _ => g i) (fun _ => conj_of (f j)) (fun _ => ce (f i)) (fun _ => @conj C (ce (g j))) (fun _ => ce (g i)) (fun _ => @conj C (ce (f j)))); ex.
Qed.
Lemma herk_cfma : forall (m : mem C) A C0 t (a : nat -> nat -> cfl) (c : nat -> nat -> cfl),
  ext0 C0 = ext1 C0 -> ext0 A = ext0 C0 -> mat_holds m A (fun i j => ce (a i j)) -> mat_holds_on m C0 (in_tri t) (fun i j => ce (c i j)) ->
  mwritable_on C0 (in_tri t) -> disjoint (mcells A) (mcells_on C0 (in_tri t)) ->
  succeeds (hermitian_matrix_rank_k_update A C0 t) m (fun _ m' =>
    (exists r, mat_holds_on m' C0 (in_tri t) r /\ forall i j, i < ext0 C0 -> j < ext1 C0 -> in_tri t i j ->
       all_cvalues (r i j) (caccurate (ext1 A + 2) (ext1 A) (cherm_of t c i j) (a i) (fun k => conj_of (a j k)))) /\
    changes_only m m' (mcells_on C0 (in_tri t))).
Proof.
  intros. eapply wp_conseq; [apply (@herk_ok C) with (c := fun i j => ce (c i j)); eauto; try (apply conj_twice); try discriminate|]. intros [] m' [K1 K2]. split; auto.
  eexists; split; [exact K1|]. intros i j _ _ _. apply (acc_sum prec emax Hp He); ex.
Qed.
Lemma her2k_cfma : forall (m : mem C) A B C0 t (a : nat -> nat -> cfl) (b : nat -> nat -> cfl) (c : nat -> nat -> cfl),
  ext0 C0 = ext1 C0 -> ext0 A = ext0 C0 -> ext0 B = ext0 C0 -> ext1 B = ext1 A -> mat_holds m A (fun i j => ce (a i j)) ->
  mat_holds m B (fun i j => ce (b i j)) -> mat_holds_on m C0 (in_tri t) (fun i j => ce (c i j)) -> mwritable_on C0 (in_tri t) ->
  disjoint (mcells A) (mcells_on C0 (in_tri t)) -> disjoint (mcells B) (mcells_on C0 (in_tri t)) ->
  succeeds (hermitian_matrix_rank_2k_update A B C0 t) m (fun _ m' =>
    (exists r, mat_holds_on m' C0 (in_tri t) r /\ forall i j, i < ext0 C0 -> j < ext1 C0 -> in_tri t i j ->
       all_cvalues (r i j) (caccurate2 (ext1 A + 3) (ext1 A) (cherm_of t c i j) (a i) (fun k => conj_of (b j k)) (b i) (fun k => conj_of (a j k)))) /\
    changes_only m m' (mcells_on C0 (in_tri t))).
Proof.
  intros. eapply wp_conseq; [apply (@her2k_ok C) with (c := fun i j => ce (c i j)); eauto; try (apply conj_twice); try discriminate|]. intros [] m' [K1 K2]. split; auto.
  eexists; split; [exact K1|]. intros i j _ _ _. apply (acc2_sum prec emax Hp He); ex.
Qed.
Lemma symv_upd_cfma : forall (m : mem C) A t x y z (a : nat -> nat -> cfl) (f : nat -> cfl) (g : nat -> cfl),
  ext0 A = ext1 A -> vext x = ext1 A -> vext y = ext0 A -> vext z = ext0 A -> mat_holds_on m A (in_tri t) (fun i j => ce (a i j)) ->
  vec_holds m x (fun i => ce (f i)) -> vec_holds m y (fun i => ce (g i)) -> vwritable z -> allocated m (vcells z) ->
  disjoint (mcells_on A (in_tri t)) (vcells z) -> disjoint (vcells x) (vcells z) -> disjoint_or_aligned_v y z ->
  succeeds (symmetric_matrix_vector_product_upd A t x y z) m (fun _ m' =>
    (exists r, vec_holds m' z r /\ forall i, i < vext z ->
       all_cvalues (r i) (caccurate (ext1 A + 2) (ext1 A) (g i) (fun k => csym_of t a i k) f)) /\
    changes_only m m' (vcells z)).
Proof.
  intros. eapply wp_conseq; [apply (@symv_upd_ok C) with (g := fun i => ce (g i)); eauto; try (apply conj_twice); try discriminate|]. intros [] m' [K1 K2]. split; auto.
  eexists; split; [exact K1|]. intros i _. apply (acc_sum prec emax Hp He); ex.
Qed.
Lemma symm_left_cfma : forall (m : mem C) A t B C0 (a : nat -> nat -> cfl) (b : nat -> nat -> cfl),
  ext0 A = ext1 A -> ext0 C0 = ext0 A -> ext1 A = ext0 B -> ext1 C0 = ext1 B -> mat_holds_on m A (in_tri t) (fun i j => ce (a i j)) ->
  mat_holds m B (fun i j => ce (b i j)) -> mwritable C0 -> allocated m (mcells C0) -> disjoint (mcells_on A (in_tri t)) (mcells C0) ->
  disjoint (mcells B) (mcells C0) ->
  succeeds (symmetric_matrix_product_left A t B C0) m (fun _ m' =>
    (exists r, mat_holds m' C0 r /\ forall i j, i < ext0 C0 -> j < ext1 C0 ->
       all_cvalues (r i j) (caccurate (ext1 A + 1) (ext1 A) czero (fun k => csym_of t a i k) (fun k => b k j))) /\
    changes_only m m' (mcells C0)).
Proof.
  intros. eapply wp_conseq; [apply (@symm_left_ok C); eauto; try (apply conj_twice); try discriminate|]. intros [] m' [K1 K2]. split; auto.
  eexists; split; [exact K1|]. intros i j _ _. apply (acc_big prec emax Hp He); ex.
Qed.
Lemma symm_right_cfma : forall (m : mem C) B A t C0 (a : nat -> nat -> cfl) (b : nat -> nat -> cfl),
  ext0 A = ext1 A -> ext0 C0 = ext0 B -> ext1 B = ext0 A -> ext1 C0 = ext1 A -> mat_holds_on m A (in_tri t) (fun i j => ce (a i j)) ->
  mat_holds m B (fun i j => ce (b i j)) -> mwritable C0 -> allocated m (mcells C0) -> disjoint (mcells_on A (in_tri t)) (mcells C0) ->
  disjoint (mcells B) (mcells C0) ->
  succeeds (symmetric_matrix_product_right B A t C0) m (fun _ m' =>
    (exists r, mat_holds m' C0 r /\ forall i j, i < ext0 C0 -> j < ext1 C0 ->
       all_cvalues (r i j) (caccurate (ext1 A + 1) (ext1 A) czero (b i) (fun k => csym_of t a k j))) /\
    changes_only m m' (mcells C0)).
Proof.
  intros. eapply wp_conseq; [apply (@symm_right_ok C); eauto; try (apply conj_twice); try discriminate|]. intros [] m' [K1 K2]. split; auto.
  eexists; split; [exact K1|]. intros i j _ _. apply (acc_big prec emax Hp He); ex.
Qed.
Lemma hemm_right_cfma : forall (m : mem C) B A t C0 (a : nat -> nat -> cfl) (b : nat -> nat -> cfl),
  ext0 A = ext1 A -> ext0 C0 = ext0 B -> ext1 B = ext0 A -> ext1 C0 = ext1 A -> mat_holds_on m A (in_tri t) (fun i j => ce (a i j)) ->
  mat_holds m B (fun i j => ce (b i j)) -> mwritable C0 -> allocated m (mcells C0) -> disjoint (mcells_on A (in_tri t)) (mcells C0) ->
  disjoint (mcells B) (mcells C0) ->
  succeeds (hermitian_matrix_product_right B A t C0) m (fun _ m' =>
    (exists r, mat_holds m' C0 r /\ forall i j, i < ext0 C0 -> j < ext1 C0 ->
       all_cvalues (r i j) (caccurate (ext1 A + 1) (ext1 A) czero (b i) (fun k => if in_tri_b t k j then a k j else conj_of (a j k)))) /\
    changes_only m m' (mcells C0)).
Proof.
  intros. eapply wp_conseq; [apply (@hemm_right_ok C); eauto; try (apply conj_twice); try discriminate|]. intros [] m' [K1 K2]. split; auto.
  eexists; split; [exact K1|]. intros i j _ _. apply (acc_big prec emax Hp He); ex.
Qed.
Lemma syr_cfma : forall (m : mem C) x A t (a : nat -> nat -> cfl) (f : nat -> cfl),
  ext0 A = ext1 A -> vext x = ext0 A -> mat_holds_on m A (in_tri t) (fun i j => ce (a i j)) -> vec_holds m x (fun i => ce (f i)) ->
  mwritable_on A (in_tri t) -> disjoint (vcells x) (mcells_on A (in_tri t)) ->
  succeeds (symmetric_matrix_rank_1_update x A t) m (fun _ m' =>
    (exists r, mat_holds_on m' A (in_tri t) r /\ forall i j, i < ext0 A -> j < ext1 A -> in_tri t i j ->
       all_cvalues (r i j) (caccurate 3 1 (a i j) (fun _ => f i) (fun _ => f j))) /\
    changes_only m m' (mcells_on A (in_tri t))).
Proof.
  intros. eapply wp_conseq; [apply (@syr_ok C); eauto; try (apply conj_twice); try discriminate|]. intros [] m' [K1 K2]. split; auto.
  eexists; split; [exact K1|]. intros i j _ _ _. apply (acc_sum prec emax Hp He 1 (a i j) (ce (a i j)) (fun _ => f i) (fun _ => f j) (fun _ => ce (f i)) (fun _ => ce (f j))); ex.
Qed.
Lemma syr2_cfma : forall (m : mem C) x y A t (a : nat -> nat -> cfl) (f : nat -> cfl) (g : nat -> cfl),
  ext0 A = ext1 A -> vext x = ext0 A -> vext y = ext0 A -> mat_holds_on m A (in_tri t) (fun i j => ce (a i j)) -> vec_holds m x (fun i => ce (f i)) ->
  vec_holds m y (fun i => ce (g i)) -> mwritable_on A (in_tri t) -> disjoint (vcells x) (mcells_on A (in_tri t)) ->
  disjoint (vcells y) (mcells_on A (in_tri t)) ->
  succeeds (symmetric_matrix_rank_2_update x y A t) m (fun _ m' =>
    (exists r, mat_holds_on m' A (in_tri t) r /\ forall i j, i < ext0 A -> j < ext1 A -> in_tri t i j ->
       all_cvalues (r i j) (caccurate2 4 1 (a i j) (fun _ => f i) (fun _ => g j) (fun _ => g i) (fun _ => f j))) /\
    changes_only m m' (mcells_on A (in_tri t))).
Proof.
  intros. eapply wp_conseq; [apply (@syr2_ok C); eauto; try (apply conj_twice); try discriminate|]. intros [] m' [K1 K2]. split; auto.
  eexists; split; [exact K1|]. intros i j _ _ _. apply (acc2_sum prec emax Hp He 1 (a i j) (ce (a i j)) (fun _ => f i) (fun _ => g j) (fun _ => g i) (fun _ => f j) (fun _ => ce (f i)) (fun _ => ce (g j)) (fun _ => ce (g i)) (fun _ => ce (f j))); ex.
Qed.
Lemma syrk_cfma : forall (m : mem C) A C0 t (a : nat -> nat -> cfl) (c : nat -> nat -> cfl),
  ext0 C0 = ext1 C0 -> ext0 A = ext0 C0 -> mat_holds m A (fun i j => ce (a i j)) -> mat_holds_on m C0 (in_tri t) (fun i j => ce (c i j)) ->
  mwritable_on C0 (in_tri t) -> disjoint (mcells A) (mcells_on C0 (in_tri t)) ->
  succeeds (symmetric_matrix_rank_k_update A C0 t) m (fun _ m' =>
    (exists r, mat_holds_on m' C0 (in_tri t) r /\ forall i j, i < ext0 C0 -> j < ext1 C0 -> in_tri t i j ->
       all_cvalues (r i j) (caccurate (ext1 A + 2) (ext1 A) (c i j) (a i) (a j))) /\
    changes_only m m' (mcells_on C0 (in_tri t))).
Proof.
  intros. eapply wp_conseq; [apply (@syrk_ok C) with (c := fun i j => ce (c i j)); eauto; try (apply conj_twice); try discriminate|]. intros [] m' [K1 K2]. split; auto.
  eexists; split; [exact K1|]. intros i j _ _ _. apply (acc_sum prec emax Hp He); ex.
Qed.
Lemma syr2k_cfma : forall (m : mem C) A B C0 t (a : nat -> nat -> cfl) (b : nat -> nat -> cfl) (c : nat -> nat -> cfl),
  ext0 C0 = ext1 C0 -> ext0 A = ext0 C0 -> ext0 B = ext0 C0 -> ext1 B = ext1 A -> mat_holds m A (fun i j => ce (a i j)) ->
  mat_holds m B (fun i j => ce (b i j)) -> mat_holds_on m C0 (in_tri t) (fun i j => ce (c i j)) -> mwritable_on C0 (in_tri t) ->
  disjoint (mcells A) (mcells_on C0 (in_tri t)) -> disjoint (mcells B) (mcells_on C0 (in_tri t)) ->
  succeeds (symmetric_matrix_rank_2k_update A B C0 t) m (fun _ m' =>
    (exists r, mat_holds_on m' C0 (in_tri t) r /\ forall i j, i < ext0 C0 -> j < ext1 C0 -> in_tri t i j ->
       all_cvalues (r i j) (caccurate2 (ext1 A + 3) (ext1 A) (c i j) (a i) (b j) (b i) (a j))) /\
    changes_only m m' (mcells_on C0 (in_tri t))).
Proof.
  intros. eapply wp_conseq; [apply (@syr2k_ok C) with (c := fun i j => ce (c i j)); eauto; try (apply conj_twice); try discriminate|]. intros [] m' [K1 K2]. split; auto.
  eexists; split; [exact K1|]. intros i j _ _ _. apply (acc2_sum prec emax Hp He); ex.
Qed.
End FmaCOps.

(** Packed matrices as operands of the algorithms. *)
From Coq Require Import List Arith ZArith Lia Bool.
From Verif Require Import Mem Scalar View Spec LayoutG SpecSub SpecInp Packed SpecPacked Idx Wp Blas1 Blas2 Blas3
  PfBlas1 PfBlas2 PfTrmv PfTrsv PfRank PfBlas3 PfTrsm PfSub PfInplace PfPacked.
Import ListNotations.
Set Implicit Arguments.
Local Open Scope sc_scope.

Section Ops.
Context {O : ops}.
Ltac pk := first
  [ eassumption | reflexivity
  | eapply packed_holds; eassumption | eapply packed_stored; eassumption | apply packed_writable
  | match goal with D : disjoint ?P ?Q |- disjoint _ _ =>
      let c := fresh in let H1 := fresh in let H2 := fresh in
      intros c H1 H2; apply (D c);
      solve [ assumption | apply packed_cells in H1; assumption | apply packed_stored_cells in H1; assumption
            | apply packed_cells in H2; assumption ]
    end ].
Ltac out := intros [] ? [? K]; split; [apply holds_packed; assumption|];
  let c := fresh in let N := fresh in intros c N; apply K; let H := fresh in intro H; apply N; apply packed_cells in H; exact H.
Lemma packed_symv : forall (m : mem O) base n o t x y a f,
  vext x = n -> vext y = n ->
  array_holds m base (packed_elems t o n) a -> vec_holds m x f -> vwritable y -> allocated m (vcells y) ->
  disjoint (cells_from base (n * (n + 1) / 2)) (vcells y) -> disjoint (vcells x) (vcells y) ->
  succeeds (symmetric_matrix_vector_product (packed_mat base n t o ADefault) t x y) m (fun _ m' =>
    vec_holds m' y (fun i => bigsum n (fun j => sym_of t a i j * f j)) /\ changes_only m m' (vcells y)).
Proof. intros. apply symv_ok; pk. Qed.
Lemma packed_symv_upd : forall (m : mem O) base n o t x y z a f g,
  vext x = n -> vext y = n -> vext z = n ->
  array_holds m base (packed_elems t o n) a -> vec_holds m x f -> vec_holds m y g -> vwritable z -> allocated m (vcells z) ->
  disjoint (cells_from base (n * (n + 1) / 2)) (vcells z) -> disjoint (vcells x) (vcells z) -> disjoint_or_aligned_v y z ->
  succeeds (symmetric_matrix_vector_product_upd (packed_mat base n t o ADefault) t x y z) m (fun _ m' =>
    vec_holds m' z (fun i => sum_from (g i) 0 n (fun j => sym_of t a i j * f j)) /\ changes_only m m' (vcells z)).
Proof. intros. apply symv_upd_ok; pk. Qed.
Lemma packed_hemv : forall (m : mem O) base n o t x y a f,
  vext x = n -> vext y = n ->
  array_holds m base (packed_elems t o n) a -> vec_holds m x f -> vwritable y -> allocated m (vcells y) ->
  disjoint (cells_from base (n * (n + 1) / 2)) (vcells y) -> disjoint (vcells x) (vcells y) ->
  succeeds (hermitian_matrix_vector_product (packed_mat base n t o ADefault) t x y) m (fun _ m' =>
    vec_holds m' y (fun i => bigsum n (fun j => herm_of t a i j * f j)) /\ changes_only m m' (vcells y)).
Proof. intros. apply hemv_ok; pk. Qed.
Lemma packed_hemv_upd : forall (m : mem O) base n o t x y z a f g,
  vext x = n -> vext y = n -> vext z = n ->
  array_holds m base (packed_elems t o n) a -> vec_holds m x f -> vec_holds m y g -> vwritable z -> allocated m (vcells z) ->
  disjoint (cells_from base (n * (n + 1) / 2)) (vcells z) -> disjoint (vcells x) (vcells z) -> disjoint_or_aligned_v y z ->
  succeeds (hermitian_matrix_vector_product_upd (packed_mat base n t o ADefault) t x y z) m (fun _ m' =>
    vec_holds m' z (fun i => sum_from (g i) 0 n (fun j => herm_of t a i j * f j)) /\ changes_only m m' (vcells z)).
Proof. intros. apply hemv_upd_ok; pk. Qed.
Lemma packed_trmv : forall (m : mem O) base n o t d x y a f,
  vext x = n -> vext y = n ->
  array_holds m base (packed_elems t o n) a -> vec_holds m x f -> vwritable y -> allocated m (vcells y) ->
  disjoint (cells_from base (n * (n + 1) / 2)) (vcells y) -> disjoint (vcells x) (vcells y) ->
  succeeds (triangular_matrix_vector_product (packed_mat base n t o ADefault) t d x y) m (fun _ m' =>
    vec_holds m' y (tri_row zero t d n a f) /\ changes_only m m' (vcells y)).
Proof. intros. apply trmv_ok; pk. Qed.
Lemma packed_trmv_upd : forall (m : mem O) base n o t d x y z a f g,
  vext x = n -> vext y = n -> vext z = n ->
  array_holds m base (packed_elems t o n) a -> vec_holds m x f -> vec_holds m y g -> vwritable z -> allocated m (vcells z) ->
  disjoint (cells_from base (n * (n + 1) / 2)) (vcells z) -> disjoint (vcells x) (vcells z) -> disjoint_or_aligned_v y z ->
  succeeds (triangular_matrix_vector_product_upd (packed_mat base n t o ADefault) t d x y z) m (fun _ m' =>
    vec_holds m' z (fun i => tri_row (g i) t d n a f i) /\ changes_only m m' (vcells z)).
Proof. intros. apply trmv_upd_ok; pk. Qed.
Lemma packed_trmv_inplace : forall (m : mem O) base n o t d y a f,
  vext y = n ->
  array_holds m base (packed_elems t o n) a -> vec_holds m y f -> vwritable y ->
  disjoint (cells_from base (n * (n + 1) / 2)) (vcells y) ->
  succeeds (triangular_matrix_vector_product_inplace (packed_mat base n t o ADefault) t d y) m (fun _ m' =>
    vec_holds m' y (fun i => added (times_diag d (f i * a i i) (f i)) (row_order t n i) (fun j => a i j * f j)) /\
    changes_only m m' (vcells y)).
Proof. intros. apply trmv_inplace_exact; pk. Qed.
Lemma packed_trsv : forall ty (m : mem O) base n o t d B X a b,
  fits ty n -> (n = 0 -> t = Upper -> ty <> U32) ->
  vext B = n -> vext X = n ->
  array_holds m base (packed_elems t o n) a -> vec_holds m B b -> vwritable X -> allocated m (vcells X) ->
  disjoint (cells_from base (n * (n + 1) / 2)) (vcells X) -> disjoint_or_aligned_v B X ->
  succeeds (triangular_matrix_vector_solve ty (packed_mat base n t o ADefault) t d B X) m (fun _ m' =>
    (exists f, vec_holds m' X f /\
      forall i, i < n -> f i = subst_value div t d n a b f i)
    /\ changes_only m m' (vcells X)).
Proof. intros. apply trsv_subst; pk. Qed.
Lemma packed_trsm_left : forall ty (m : mem O) base n o t d B X a b,
  fits ty n -> (n = 0 -> t = Upper -> ty <> U32) ->
  ext0 B = n -> ext0 X = n -> ext1 X = ext1 B ->
  array_holds m base (packed_elems t o n) a -> mat_holds m B b -> mwritable X -> allocated m (mcells X) ->
  disjoint (cells_from base (n * (n + 1) / 2)) (mcells X) -> disjoint_or_aligned_m B X ->
  succeeds (triangular_matrix_matrix_left_solve ty (packed_mat base n t o ADefault) t d B X) m (fun _ m' =>
    (exists x, mat_holds m' X x /\
      forall i j, i < ext0 X -> j < ext1 X ->
        x i j = subst_value div t d n a (fun k => b k j) (fun k => x k j) i)
    /\ changes_only m m' (mcells X)).
Proof. intros. apply trsm_left_subst; pk. Qed.
Lemma packed_trsm_right : forall ty (m : mem O) base n o t d B X a b,
  (t = Lower -> fits (make_signed ty) n) ->
  ext1 B = n -> ext1 X = n -> ext0 X = ext0 B ->
  array_holds m base (packed_elems t o n) a -> mat_holds m B b -> mwritable X -> allocated m (mcells X) ->
  disjoint (cells_from base (n * (n + 1) / 2)) (mcells X) -> disjoint_or_aligned_m B X ->
  succeeds (triangular_matrix_matrix_right_solve ty (packed_mat base n t o ADefault) t d B X) m (fun _ m' =>
    (exists x, mat_holds m' X x /\
      forall i j, i < ext0 X -> j < ext1 X ->
        x i j = subst_value_r t d n a (fun k => b i k) (fun k => x i k) j)
    /\ changes_only m m' (mcells X)).
Proof. intros. apply trsm_right_subst; pk. Qed.
Lemma packed_symm_left : forall (m : mem O) base n o t B C a b,
  ext0 C = n -> n = ext0 B -> ext1 C = ext1 B ->
  array_holds m base (packed_elems t o n) a -> mat_holds m B b -> mwritable C -> allocated m (mcells C) ->
  disjoint (cells_from base (n * (n + 1) / 2)) (mcells C) -> disjoint (mcells B) (mcells C) ->
  succeeds (symmetric_matrix_product_left (packed_mat base n t o ADefault) t B C) m (fun _ m' =>
    mat_holds m' C (fun i j => bigsum n (fun k => sym_of t a i k * b k j)) /\ changes_only m m' (mcells C)).
Proof. intros. apply symm_left_ok; pk. Qed.
Lemma packed_symm_right : forall (m : mem O) B base n o t C a b,
  ext0 C = ext0 B -> ext1 B = n -> ext1 C = n ->
  array_holds m base (packed_elems t o n) a -> mat_holds m B b -> mwritable C -> allocated m (mcells C) ->
  disjoint (cells_from base (n * (n + 1) / 2)) (mcells C) -> disjoint (mcells B) (mcells C) ->
  succeeds (symmetric_matrix_product_right B (packed_mat base n t o ADefault) t C) m (fun _ m' =>
    mat_holds m' C (fun i j => bigsum n (fun k => b i k * sym_of t a k j)) /\ changes_only m m' (mcells C)).
Proof. intros. apply symm_right_ok; pk. Qed.
Lemma packed_hemm_left : forall (m : mem O) base n o t B C a b,
  ext0 C = n -> n = ext0 B -> ext1 C = ext1 B ->
  array_holds m base (packed_elems t o n) a -> mat_holds m B b -> mwritable C -> allocated m (mcells C) ->
  disjoint (cells_from base (n * (n + 1) / 2)) (mcells C) -> disjoint (mcells B) (mcells C) ->
  succeeds (hermitian_matrix_product_left (packed_mat base n t o ADefault) t B C) m (fun _ m' =>
    mat_holds m' C (fun i j => bigsum n (fun k => herm_of t a i k * b k j)) /\ changes_only m m' (mcells C)).
Proof. intros. apply hemm_left_ok; pk. Qed.
Lemma packed_trmm_left : forall ty (m : mem O) base n o t d B C a b,
  ring_laws O -> fits ty (ext0 C) ->
  ext0 C = n -> n = ext0 B -> ext1 C = ext1 B ->
  array_holds m base (packed_elems t o n) a -> mat_holds m B b -> mwritable C -> allocated m (mcells C) ->
  disjoint (cells_from base (n * (n + 1) / 2)) (mcells C) -> disjoint (mcells B) (mcells C) ->
  succeeds (triangular_matrix_product_left ty (packed_mat base n t o ADefault) t d B C) m (fun _ m' =>
    mat_holds m' C (fun i j => bigsum n (fun k => tri_of t d a i k * b k j)) /\ changes_only m m' (mcells C)).
Proof. intros. apply trmm_left_ok; pk. Qed.
Lemma packed_trmm_right : forall ty (m : mem O) B base n o t d C a b,
  ring_laws O -> fits ty (ext1 C) ->
  ext0 C = ext0 B -> ext1 B = n -> ext1 C = n ->
  array_holds m base (packed_elems t o n) a -> mat_holds m B b -> mwritable C -> allocated m (mcells C) ->
  disjoint (cells_from base (n * (n + 1) / 2)) (mcells C) -> disjoint (mcells B) (mcells C) ->
  succeeds (triangular_matrix_product_right ty B (packed_mat base n t o ADefault) t d C) m (fun _ m' =>
    mat_holds m' C (fun i j => bigsum n (fun k => b i k * tri_of t d a k j)) /\ changes_only m m' (mcells C)).
Proof. intros. apply trmm_right_ok; pk. Qed.
Lemma packed_syr : forall (m : mem O) x base n o t a f,
  vext x = n ->
  array_holds m base (packed_elems t o n) a -> vec_holds m x f -> disjoint (vcells x) (cells_from base (n * (n + 1) / 2)) ->
  succeeds (symmetric_matrix_rank_1_update x (packed_mat base n t o ADefault) t) m (fun _ m' =>
    array_holds m' base (packed_elems t o n) (fun i j => a i j + f i * f j) /\
    changes_only m m' (cells_from base (n * (n + 1) / 2))).
Proof. intros. eapply wp_conseq; [eapply syr_ok; pk|out]. Qed.
Lemma packed_syr_alpha : forall (m : mem O) alpha x base n o t a f,
  vext x = n ->
  array_holds m base (packed_elems t o n) a -> vec_holds m x f -> disjoint (vcells x) (cells_from base (n * (n + 1) / 2)) ->
  succeeds (symmetric_matrix_rank_1_update_alpha alpha x (packed_mat base n t o ADefault) t) m (fun _ m' =>
    array_holds m' base (packed_elems t o n) (fun i j => a i j + alpha * f i * f j) /\
    changes_only m m' (cells_from base (n * (n + 1) / 2))).
Proof. intros. eapply wp_conseq; [eapply syr_alpha_ok; pk|out]. Qed.
Lemma packed_her : forall (m : mem O) x base n o t a f,
  vext x = n ->
  array_holds m base (packed_elems t o n) a -> vec_holds m x f -> disjoint (vcells x) (cells_from base (n * (n + 1) / 2)) ->
  succeeds (hermitian_matrix_rank_1_update x (packed_mat base n t o ADefault) t) m (fun _ m' =>
    array_holds m' base (packed_elems t o n) (fun i j => herm_of t a i j + f i * conj (f j)) /\
    changes_only m m' (cells_from base (n * (n + 1) / 2))).
Proof. intros. eapply wp_conseq; [eapply her_ok; pk|out]. Qed.
Lemma packed_her_alpha : forall (m : mem O) alpha x base n o t a f,
  vext x = n ->
  array_holds m base (packed_elems t o n) a -> vec_holds m x f -> disjoint (vcells x) (cells_from base (n * (n + 1) / 2)) ->
  succeeds (hermitian_matrix_rank_1_update_alpha alpha x (packed_mat base n t o ADefault) t) m (fun _ m' =>
    array_holds m' base (packed_elems t o n) (fun i j => herm_of t a i j + alpha * f i * conj (f j)) /\
    changes_only m m' (cells_from base (n * (n + 1) / 2))).
Proof. intros. eapply wp_conseq; [eapply her_alpha_ok; pk|out]. Qed.
Lemma packed_syr2 : forall (m : mem O) x y base n o t a f g,
  vext x = n -> vext y = n ->
  array_holds m base (packed_elems t o n) a -> vec_holds m x f -> vec_holds m y g -> disjoint (vcells x) (cells_from base (n * (n + 1) / 2)) -> disjoint (vcells y) (cells_from base (n * (n + 1) / 2)) ->
  succeeds (symmetric_matrix_rank_2_update x y (packed_mat base n t o ADefault) t) m (fun _ m' =>
    array_holds m' base (packed_elems t o n) (fun i j => a i j + (f i * g j + g i * f j)) /\
    changes_only m m' (cells_from base (n * (n + 1) / 2))).
Proof. intros. eapply wp_conseq; [eapply syr2_ok; pk|out]. Qed.
Lemma packed_her2 : forall (m : mem O) x y base n o t a f g,
  vext x = n -> vext y = n ->
  array_holds m base (packed_elems t o n) a -> vec_holds m x f -> vec_holds m y g -> disjoint (vcells x) (cells_from base (n * (n + 1) / 2)) -> disjoint (vcells y) (cells_from base (n * (n + 1) / 2)) ->
  succeeds (hermitian_matrix_rank_2_update x y (packed_mat base n t o ADefault) t) m (fun _ m' =>
    array_holds m' base (packed_elems t o n) (fun i j => herm_of t a i j + (f i * conj (g j) + g i * conj (f j))) /\
    changes_only m m' (cells_from base (n * (n + 1) / 2))).
Proof. intros. eapply wp_conseq; [eapply her2_ok; pk|out]. Qed.
Lemma packed_syrk : forall (m : mem O) A base n o t a c,
  ext0 A = n ->
  mat_holds m A a -> array_holds m base (packed_elems t o n) c -> disjoint (mcells A) (cells_from base (n * (n + 1) / 2)) ->
  succeeds (symmetric_matrix_rank_k_update A (packed_mat base n t o ADefault) t) m (fun _ m' =>
    array_holds m' base (packed_elems t o n) (fun i j => sum_from (c i j) 0 (ext1 A) (fun k => a i k * a j k)) /\
    changes_only m m' (cells_from base (n * (n + 1) / 2))).
Proof. intros. eapply wp_conseq; [eapply syrk_ok; pk|out]. Qed.
Lemma packed_syrk_alpha : forall (m : mem O) alpha A base n o t a c,
  ext0 A = n ->
  mat_holds m A a -> array_holds m base (packed_elems t o n) c -> disjoint (mcells A) (cells_from base (n * (n + 1) / 2)) ->
  succeeds (symmetric_matrix_rank_k_update_alpha alpha A (packed_mat base n t o ADefault) t) m (fun _ m' =>
    array_holds m' base (packed_elems t o n) (fun i j => sum_from (c i j) 0 (ext1 A) (fun k => alpha * a i k * a j k)) /\
    changes_only m m' (cells_from base (n * (n + 1) / 2))).
Proof. intros. eapply wp_conseq; [eapply syrk_alpha_ok; pk|out]. Qed.
Lemma packed_herk : forall (m : mem O) A base n o t a c,
  ext0 A = n ->
  mat_holds m A a -> array_holds m base (packed_elems t o n) c -> disjoint (mcells A) (cells_from base (n * (n + 1) / 2)) ->
  succeeds (hermitian_matrix_rank_k_update A (packed_mat base n t o ADefault) t) m (fun _ m' =>
    array_holds m' base (packed_elems t o n) (fun i j => sum_from (herm_of t c i j) 0 (ext1 A) (fun k => a i k * conj (a j k))) /\
    changes_only m m' (cells_from base (n * (n + 1) / 2))).
Proof. intros. eapply wp_conseq; [eapply herk_ok; pk|out]. Qed.
Lemma packed_herk_alpha : forall (m : mem O) alpha A base n o t a c,
  ext0 A = n ->
  mat_holds m A a -> array_holds m base (packed_elems t o n) c -> disjoint (mcells A) (cells_from base (n * (n + 1) / 2)) ->
  succeeds (hermitian_matrix_rank_k_update_alpha alpha A (packed_mat base n t o ADefault) t) m (fun _ m' =>
    array_holds m' base (packed_elems t o n) (fun i j => sum_from (herm_of t c i j) 0 (ext1 A) (fun k => alpha * a i k * conj (a j k))) /\
    changes_only m m' (cells_from base (n * (n + 1) / 2))).
Proof. intros. eapply wp_conseq; [eapply herk_alpha_ok; pk|out]. Qed.
Lemma packed_syr2k : forall (m : mem O) A B base n o t a b c,
  ext0 A = n -> ext0 B = n -> ext1 B = ext1 A ->
  mat_holds m A a -> mat_holds m B b -> array_holds m base (packed_elems t o n) c -> disjoint (mcells A) (cells_from base (n * (n + 1) / 2)) -> disjoint (mcells B) (cells_from base (n * (n + 1) / 2)) ->
  succeeds (symmetric_matrix_rank_2k_update A B (packed_mat base n t o ADefault) t) m (fun _ m' =>
    array_holds m' base (packed_elems t o n) (fun i j => sum_from (c i j) 0 (ext1 A) (fun k => a i k * b j k + b i k * a j k)) /\
    changes_only m m' (cells_from base (n * (n + 1) / 2))).
Proof. intros. eapply wp_conseq; [eapply syr2k_ok; pk|out]. Qed.
Lemma packed_her2k : forall (m : mem O) A B base n o t a b c,
  ext0 A = n -> ext0 B = n -> ext1 B = ext1 A ->
  mat_holds m A a -> mat_holds m B b -> array_holds m base (packed_elems t o n) c -> disjoint (mcells A) (cells_from base (n * (n + 1) / 2)) -> disjoint (mcells B) (cells_from base (n * (n + 1) / 2)) ->
  succeeds (hermitian_matrix_rank_2k_update A B (packed_mat base n t o ADefault) t) m (fun _ m' =>
    array_holds m' base (packed_elems t o n) (fun i j => sum_from (herm_of t c i j) 0 (ext1 A) (fun k => a i k * conj (b j k) + b i k * conj (a j k))) /\
    changes_only m m' (cells_from base (n * (n + 1) / 2))).
Proof. intros. eapply wp_conseq; [eapply her2k_ok; pk|out]. Qed.
End Ops.

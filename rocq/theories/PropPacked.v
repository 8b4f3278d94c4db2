(** C89: packed storage (layout_blas_packed): an array of n (n + 1) / 2 elements serves as one triangle of a matrix. *)
From Coq Require Import List Arith ZArith Lia Bool.
From Verif Require Import Mem Scalar View Spec LayoutG SpecSub SpecInp Packed SpecPacked Idx Blas1 Blas2 Blas3 Par KK KKBlas Wp
  PfPacked PfPackedOps PfPackedK Inst.
Import ListNotations.
Local Open Scope nat_scope.
Local Open Scope sc_scope.

(** The mapping enumerates the triangle: element (i, j) is element number [packed_off t o n i j] of the packed array, which
    has n (n + 1) / 2 elements; outside the triangle the mapping gives the position of the mirrored element. *)
Theorem C89_mapping : forall t o n,
  length (packed_elems t o n) = (n * (n + 1) / 2)%nat /\
  (forall i j, i < n -> j < n -> in_tri t i j -> nth_error (packed_elems t o n) (packed_off t o n i j) = Some (i, j)) /\
  (forall i j, i < n -> j < n -> packed_off t o n i j = packed_off t o n j i) /\
  (forall k i j, nth_error (packed_elems t o n) k = Some (i, j) -> i < n /\ j < n /\ in_tri t i j /\ k = packed_off t o n i j).
Proof. exact mapping_ok. Qed.
Print Assumptions C89_mapping.
(** 3x3, upper triangle by columns: (0,0) (0,1) (1,1) (0,2) (1,2) (2,2) *)
Example C89_mapping_case : nth_error (packed_elems Upper ColMajor 3) 4 = Some (1, 2) /\ packed_off Upper ColMajor 3 1 2 = 4 /\
  packed_off Upper ColMajor 3 2 1 = 4.
Proof.
  destruct (C89_mapping Upper ColMajor 3) as (_ & H & K & _). split; [exact (H 1 2 ltac:(lia) ltac:(lia) ltac:(simpl; lia))|].
  split; [reflexivity|]. rewrite <- (K 1 2) by lia. reflexivity.
Qed.

(** transposed of a packed matrix: the other triangle in the other order, element (j, i) being the cell of element (i, j). *)
Theorem C89_transposed : forall (O : ops) base n t o (c : acc O),
  let A := packed_mat base n t o c in let B := packed_transposed base n t o c in
  ext0 B = ext1 A /\ ext1 B = ext0 A /\ macc B = macc A /\
  (forall i j, maddr B j i = maddr A i j) /\
  (forall i j, nth_error (packed_elems t o n) i = Some j <->
     nth_error (packed_elems (opposite_triangle t) (opposite o) n) i = Some (snd j, fst j)).
Proof. exact transposed_ok. Qed.
Print Assumptions C89_transposed.
Example C89_transposed_case : maddr (packed_transposed 7 3 Lower ColMajor (@ADefault zops)) 1 2 = 11 /\
  maddr (packed_mat 7 3 Lower ColMajor (@ADefault zops)) 2 1 = 11.
Proof. destruct (C89_transposed zops 7 3 Lower ColMajor ADefault) as (_ & _ & _ & H & _). rewrite (H 2 1). split; reflexivity. Qed.

(** Used below: cell 0, then the lower triangle by columns of [1 . .; 2+i 4 .; 3i 5 6] in cells 1 to 6, vectors of three
    elements at 7, 10 and 13, a 3x3 matrix at 16 and another at 25. *)
Definition g (a b : Z) : gops := (a, b). (* test data *)
Definition pk_mem : mem gops := (* test data *)
  mem_of ([g 99 0; g 1 0; g 2 1; g 0 3; g 4 0; g 5 0; g 6 0; g 1 0; g 0 1; g 2 0; g 3 0; g 1 1; g 1 0; g 0 0; g 0 0; g 0 0;
           g 1 0; g 0 0; g 1 1; g 2 0; g 0 1; g 0 0; g 1 0; g 1 0; g 3 0] ++ repeat (g 0 0) 9).
Definition pk_a : nat -> nat -> gops := gm [[g 1 0; g 0 0; g 0 0]; [g 2 1; g 4 0; g 0 0]; [g 0 3; g 5 0; g 6 0]]. (* test data *)
Definition pk_b : nat -> nat -> gops := gm [[g 1 0; g 0 0; g 1 1]; [g 2 0; g 0 1; g 0 0]; [g 1 0; g 1 0; g 3 0]]. (* test data *)
Definition pk_x : nat -> gops := gv [g 1 0; g 0 1; g 2 0]. (* test data *)
Definition pk_y : nat -> gops := gv [g 3 0; g 1 1; g 1 0]. (* test data *)
Ltac pkc :=
  match goal with
  | |- array_holds _ _ _ _ => let k := fresh in let H := fresh in intros k ? ? H;
      do 6 (destruct k as [|k]; [inversion H; reflexivity|]); destruct k; discriminate
  | |- disjoint (cells_from _ _) _ => eapply disj_c; [exact (fun c H => proj2 (in_seq 6 1 c) H) | first [apply vcells_list | apply mcells_list] | reflexivity]
  | |- disjoint _ (cells_from _ _) => eapply disj_c; [first [apply vcells_list | apply mcells_list] | exact (fun c H => proj2 (in_seq 6 1 c) H) | reflexivity]
  | |- ring_laws _ => exact gring
  | |- fits _ _ => vm_compute; split; discriminate
  | |- _ => solve [discriminate | intros; discriminate | intros; vm_compute; split; discriminate]
  | _ => concrete1
  end.
Ltac pks := unfold pk_mem; repeat pkc.

(** y = A x, A symmetric and packed *)
Theorem C89_symv : forall (O : ops) (m : mem O) base n o t x y a f,
  vext x = n -> vext y = n ->
  array_holds m base (packed_elems t o n) a -> vec_holds m x f -> vwritable y -> allocated m (vcells y) ->
  disjoint (cells_from base (n * (n + 1) / 2)) (vcells y) -> disjoint (vcells x) (vcells y) ->
  succeeds (symmetric_matrix_vector_product (packed_mat base n t o ADefault) t x y) m (fun _ m' =>
    vec_holds m' y (fun i => bigsum n (fun j => sym_of t a i j * f j)) /\ changes_only m m' (vcells y)).
Proof. exact (@packed_symv). Qed.
Print Assumptions C89_symv.
Example C89_symv_case :
  succeeds (symmetric_matrix_vector_product (packed_mat 1 3 Lower ColMajor ADefault) Lower (@vec_at gops 7 3) (@vec_at gops 10 3)) pk_mem (fun _ m' =>
    vec_holds m' (@vec_at gops 10 3) (fun i => bigsum 3 (fun j => sym_of Lower pk_a i j * pk_x j)) /\ changes_only pk_mem m' (vcells (@vec_at gops 10 3))).
Proof. apply (C89_symv gops pk_mem 1 3 ColMajor Lower (@vec_at gops 7 3) (@vec_at gops 10 3) pk_a pk_x); pks. Qed.

(** z = y + A x, A symmetric and packed *)
Theorem C89_symv_upd : forall (O : ops) (m : mem O) base n o t x y z a f g,
  vext x = n -> vext y = n -> vext z = n ->
  array_holds m base (packed_elems t o n) a -> vec_holds m x f -> vec_holds m y g -> vwritable z -> allocated m (vcells z) ->
  disjoint (cells_from base (n * (n + 1) / 2)) (vcells z) -> disjoint (vcells x) (vcells z) -> disjoint_or_aligned_v y z ->
  succeeds (symmetric_matrix_vector_product_upd (packed_mat base n t o ADefault) t x y z) m (fun _ m' =>
    vec_holds m' z (fun i => sum_from (g i) 0 n (fun j => sym_of t a i j * f j)) /\ changes_only m m' (vcells z)).
Proof. exact (@packed_symv_upd). Qed.
Print Assumptions C89_symv_upd.
Example C89_symv_upd_case :
  succeeds (symmetric_matrix_vector_product_upd (packed_mat 1 3 Lower ColMajor ADefault) Lower (@vec_at gops 7 3) (@vec_at gops 10 3) (@vec_at gops 13 3)) pk_mem (fun _ m' =>
    vec_holds m' (@vec_at gops 13 3) (fun i => sum_from (pk_y i) 0 3 (fun j => sym_of Lower pk_a i j * pk_x j)) /\ changes_only pk_mem m' (vcells (@vec_at gops 13 3))).
Proof. apply (C89_symv_upd gops pk_mem 1 3 ColMajor Lower (@vec_at gops 7 3) (@vec_at gops 10 3) (@vec_at gops 13 3) pk_a pk_x pk_y); pks. Qed.

(** y = A x, A Hermitian and packed *)
Theorem C89_hemv : forall (O : ops) (m : mem O) base n o t x y a f,
  vext x = n -> vext y = n ->
  array_holds m base (packed_elems t o n) a -> vec_holds m x f -> vwritable y -> allocated m (vcells y) ->
  disjoint (cells_from base (n * (n + 1) / 2)) (vcells y) -> disjoint (vcells x) (vcells y) ->
  succeeds (hermitian_matrix_vector_product (packed_mat base n t o ADefault) t x y) m (fun _ m' =>
    vec_holds m' y (fun i => bigsum n (fun j => herm_of t a i j * f j)) /\ changes_only m m' (vcells y)).
Proof. exact (@packed_hemv). Qed.
Print Assumptions C89_hemv.
Example C89_hemv_case :
  succeeds (hermitian_matrix_vector_product (packed_mat 1 3 Lower ColMajor ADefault) Lower (@vec_at gops 7 3) (@vec_at gops 10 3)) pk_mem (fun _ m' =>
    vec_holds m' (@vec_at gops 10 3) (fun i => bigsum 3 (fun j => herm_of Lower pk_a i j * pk_x j)) /\ changes_only pk_mem m' (vcells (@vec_at gops 10 3))).
Proof. apply (C89_hemv gops pk_mem 1 3 ColMajor Lower (@vec_at gops 7 3) (@vec_at gops 10 3) pk_a pk_x); pks. Qed.

(** z = y + A x, A Hermitian and packed *)
Theorem C89_hemv_upd : forall (O : ops) (m : mem O) base n o t x y z a f g,
  vext x = n -> vext y = n -> vext z = n ->
  array_holds m base (packed_elems t o n) a -> vec_holds m x f -> vec_holds m y g -> vwritable z -> allocated m (vcells z) ->
  disjoint (cells_from base (n * (n + 1) / 2)) (vcells z) -> disjoint (vcells x) (vcells z) -> disjoint_or_aligned_v y z ->
  succeeds (hermitian_matrix_vector_product_upd (packed_mat base n t o ADefault) t x y z) m (fun _ m' =>
    vec_holds m' z (fun i => sum_from (g i) 0 n (fun j => herm_of t a i j * f j)) /\ changes_only m m' (vcells z)).
Proof. exact (@packed_hemv_upd). Qed.
Print Assumptions C89_hemv_upd.
Example C89_hemv_upd_case :
  succeeds (hermitian_matrix_vector_product_upd (packed_mat 1 3 Lower ColMajor ADefault) Lower (@vec_at gops 7 3) (@vec_at gops 10 3) (@vec_at gops 13 3)) pk_mem (fun _ m' =>
    vec_holds m' (@vec_at gops 13 3) (fun i => sum_from (pk_y i) 0 3 (fun j => herm_of Lower pk_a i j * pk_x j)) /\ changes_only pk_mem m' (vcells (@vec_at gops 13 3))).
Proof. apply (C89_hemv_upd gops pk_mem 1 3 ColMajor Lower (@vec_at gops 7 3) (@vec_at gops 10 3) (@vec_at gops 13 3) pk_a pk_x pk_y); pks. Qed.

(** y = A x, A triangular and packed *)
Theorem C89_trmv : forall (O : ops) (m : mem O) base n o t d x y a f,
  vext x = n -> vext y = n ->
  array_holds m base (packed_elems t o n) a -> vec_holds m x f -> vwritable y -> allocated m (vcells y) ->
  disjoint (cells_from base (n * (n + 1) / 2)) (vcells y) -> disjoint (vcells x) (vcells y) ->
  succeeds (triangular_matrix_vector_product (packed_mat base n t o ADefault) t d x y) m (fun _ m' =>
    vec_holds m' y (tri_row zero t d n a f) /\ changes_only m m' (vcells y)).
Proof. exact (@packed_trmv). Qed.
Print Assumptions C89_trmv.
Example C89_trmv_case :
  succeeds (triangular_matrix_vector_product (packed_mat 1 3 Lower ColMajor ADefault) Lower Explicit (@vec_at gops 7 3) (@vec_at gops 10 3)) pk_mem (fun _ m' =>
    vec_holds m' (@vec_at gops 10 3) (tri_row zero Lower Explicit 3 pk_a pk_x) /\ changes_only pk_mem m' (vcells (@vec_at gops 10 3))).
Proof. apply (C89_trmv gops pk_mem 1 3 ColMajor Lower Explicit (@vec_at gops 7 3) (@vec_at gops 10 3) pk_a pk_x); pks. Qed.

(** z = y + A x, A triangular and packed *)
Theorem C89_trmv_upd : forall (O : ops) (m : mem O) base n o t d x y z a f g,
  vext x = n -> vext y = n -> vext z = n ->
  array_holds m base (packed_elems t o n) a -> vec_holds m x f -> vec_holds m y g -> vwritable z -> allocated m (vcells z) ->
  disjoint (cells_from base (n * (n + 1) / 2)) (vcells z) -> disjoint (vcells x) (vcells z) -> disjoint_or_aligned_v y z ->
  succeeds (triangular_matrix_vector_product_upd (packed_mat base n t o ADefault) t d x y z) m (fun _ m' =>
    vec_holds m' z (fun i => tri_row (g i) t d n a f i) /\ changes_only m m' (vcells z)).
Proof. exact (@packed_trmv_upd). Qed.
Print Assumptions C89_trmv_upd.
Example C89_trmv_upd_case :
  succeeds (triangular_matrix_vector_product_upd (packed_mat 1 3 Lower ColMajor ADefault) Lower Explicit (@vec_at gops 7 3) (@vec_at gops 10 3) (@vec_at gops 13 3)) pk_mem (fun _ m' =>
    vec_holds m' (@vec_at gops 13 3) (fun i => tri_row (pk_y i) Lower Explicit 3 pk_a pk_x i) /\ changes_only pk_mem m' (vcells (@vec_at gops 13 3))).
Proof. apply (C89_trmv_upd gops pk_mem 1 3 ColMajor Lower Explicit (@vec_at gops 7 3) (@vec_at gops 10 3) (@vec_at gops 13 3) pk_a pk_x pk_y); pks. Qed.

(** y = A y, A triangular and packed *)
Theorem C89_trmv_inplace : forall (O : ops) (m : mem O) base n o t d y a f,
  vext y = n ->
  array_holds m base (packed_elems t o n) a -> vec_holds m y f -> vwritable y ->
  disjoint (cells_from base (n * (n + 1) / 2)) (vcells y) ->
  succeeds (triangular_matrix_vector_product_inplace (packed_mat base n t o ADefault) t d y) m (fun _ m' =>
    vec_holds m' y (fun i => added (times_diag d (f i * a i i) (f i)) (row_order t n i) (fun j => a i j * f j)) /\
    changes_only m m' (vcells y)).
Proof. exact (@packed_trmv_inplace). Qed.
Print Assumptions C89_trmv_inplace.
Example C89_trmv_inplace_case :
  succeeds (triangular_matrix_vector_product_inplace (packed_mat 1 3 Lower ColMajor ADefault) Lower Explicit (@vec_at gops 10 3)) pk_mem (fun _ m' =>
    vec_holds m' (@vec_at gops 10 3) (fun i => added (times_diag Explicit (pk_y i * pk_a i i) (pk_y i)) (row_order Lower 3 i) (fun j => pk_a i j * pk_y j)) /\
    changes_only pk_mem m' (vcells (@vec_at gops 10 3))).
Proof. apply (C89_trmv_inplace gops pk_mem 1 3 ColMajor Lower Explicit (@vec_at gops 10 3) pk_a pk_y); pks. Qed.

(** A x = b, A triangular and packed *)
Theorem C89_trsv : forall (O : ops) ty (m : mem O) base n o t d B X a b,
  fits ty n -> (n = 0 -> t = Upper -> ty <> U32) ->
  vext B = n -> vext X = n ->
  array_holds m base (packed_elems t o n) a -> vec_holds m B b -> vwritable X -> allocated m (vcells X) ->
  disjoint (cells_from base (n * (n + 1) / 2)) (vcells X) -> disjoint_or_aligned_v B X ->
  succeeds (triangular_matrix_vector_solve ty (packed_mat base n t o ADefault) t d B X) m (fun _ m' =>
    (exists f, vec_holds m' X f /\
      forall i, i < n -> f i = subst_value div t d n a b f i)
    /\ changes_only m m' (vcells X)).
Proof. exact (@packed_trsv). Qed.
Print Assumptions C89_trsv.
Example C89_trsv_case :
  succeeds (triangular_matrix_vector_solve I32 (packed_mat 1 3 Lower ColMajor ADefault) Lower Explicit (@vec_at gops 7 3) (@vec_at gops 10 3)) pk_mem (fun _ m' =>
    (exists f, vec_holds m' (@vec_at gops 10 3) f /\
      forall i, i < 3 -> f i = subst_value div Lower Explicit 3 pk_a pk_x f i)
    /\ changes_only pk_mem m' (vcells (@vec_at gops 10 3))).
Proof. apply (C89_trsv gops I32 pk_mem 1 3 ColMajor Lower Explicit (@vec_at gops 7 3) (@vec_at gops 10 3) pk_a pk_x); pks. Qed.

(** A X = B, A triangular and packed *)
Theorem C89_trsm_left : forall (O : ops) ty (m : mem O) base n o t d B X a b,
  fits ty n -> (n = 0 -> t = Upper -> ty <> U32) ->
  ext0 B = n -> ext0 X = n -> ext1 X = ext1 B ->
  array_holds m base (packed_elems t o n) a -> mat_holds m B b -> mwritable X -> allocated m (mcells X) ->
  disjoint (cells_from base (n * (n + 1) / 2)) (mcells X) -> disjoint_or_aligned_m B X ->
  succeeds (triangular_matrix_matrix_left_solve ty (packed_mat base n t o ADefault) t d B X) m (fun _ m' =>
    (exists x, mat_holds m' X x /\
      forall i j, i < ext0 X -> j < ext1 X ->
        x i j = subst_value div t d n a (fun k => b k j) (fun k => x k j) i)
    /\ changes_only m m' (mcells X)).
Proof. exact (@packed_trsm_left). Qed.
Print Assumptions C89_trsm_left.
Example C89_trsm_left_case :
  succeeds (triangular_matrix_matrix_left_solve I32 (packed_mat 1 3 Lower ColMajor ADefault) Lower Explicit (@row_major gops 16 3 3) (@row_major gops 25 3 3)) pk_mem (fun _ m' =>
    (exists x, mat_holds m' (@row_major gops 25 3 3) x /\
      forall i j, i < ext0 (@row_major gops 25 3 3) -> j < ext1 (@row_major gops 25 3 3) ->
        x i j = subst_value div Lower Explicit 3 pk_a (fun k => pk_b k j) (fun k => x k j) i)
    /\ changes_only pk_mem m' (mcells (@row_major gops 25 3 3))).
Proof. apply (C89_trsm_left gops I32 pk_mem 1 3 ColMajor Lower Explicit (@row_major gops 16 3 3) (@row_major gops 25 3 3) pk_a pk_b); pks. Qed.

(** X A = B, A triangular and packed *)
Theorem C89_trsm_right : forall (O : ops) ty (m : mem O) base n o t d B X a b,
  (t = Lower -> fits (make_signed ty) n) ->
  ext1 B = n -> ext1 X = n -> ext0 X = ext0 B ->
  array_holds m base (packed_elems t o n) a -> mat_holds m B b -> mwritable X -> allocated m (mcells X) ->
  disjoint (cells_from base (n * (n + 1) / 2)) (mcells X) -> disjoint_or_aligned_m B X ->
  succeeds (triangular_matrix_matrix_right_solve ty (packed_mat base n t o ADefault) t d B X) m (fun _ m' =>
    (exists x, mat_holds m' X x /\
      forall i j, i < ext0 X -> j < ext1 X ->
        x i j = subst_value_r t d n a (fun k => b i k) (fun k => x i k) j)
    /\ changes_only m m' (mcells X)).
Proof. exact (@packed_trsm_right). Qed.
Print Assumptions C89_trsm_right.
Example C89_trsm_right_case :
  succeeds (triangular_matrix_matrix_right_solve I32 (packed_mat 1 3 Lower ColMajor ADefault) Lower Explicit (@row_major gops 16 3 3) (@row_major gops 25 3 3)) pk_mem (fun _ m' =>
    (exists x, mat_holds m' (@row_major gops 25 3 3) x /\
      forall i j, i < ext0 (@row_major gops 25 3 3) -> j < ext1 (@row_major gops 25 3 3) ->
        x i j = subst_value_r Lower Explicit 3 pk_a (fun k => pk_b i k) (fun k => x i k) j)
    /\ changes_only pk_mem m' (mcells (@row_major gops 25 3 3))).
Proof. apply (C89_trsm_right gops I32 pk_mem 1 3 ColMajor Lower Explicit (@row_major gops 16 3 3) (@row_major gops 25 3 3) pk_a pk_b); pks. Qed.

(** C = A B, A symmetric and packed *)
Theorem C89_symm_left : forall (O : ops) (m : mem O) base n o t B C a b,
  ext0 C = n -> n = ext0 B -> ext1 C = ext1 B ->
  array_holds m base (packed_elems t o n) a -> mat_holds m B b -> mwritable C -> allocated m (mcells C) ->
  disjoint (cells_from base (n * (n + 1) / 2)) (mcells C) -> disjoint (mcells B) (mcells C) ->
  succeeds (symmetric_matrix_product_left (packed_mat base n t o ADefault) t B C) m (fun _ m' =>
    mat_holds m' C (fun i j => bigsum n (fun k => sym_of t a i k * b k j)) /\ changes_only m m' (mcells C)).
Proof. exact (@packed_symm_left). Qed.
Print Assumptions C89_symm_left.
Example C89_symm_left_case :
  succeeds (symmetric_matrix_product_left (packed_mat 1 3 Lower ColMajor ADefault) Lower (@row_major gops 16 3 3) (@row_major gops 25 3 3)) pk_mem (fun _ m' =>
    mat_holds m' (@row_major gops 25 3 3) (fun i j => bigsum 3 (fun k => sym_of Lower pk_a i k * pk_b k j)) /\ changes_only pk_mem m' (mcells (@row_major gops 25 3 3))).
Proof. apply (C89_symm_left gops pk_mem 1 3 ColMajor Lower (@row_major gops 16 3 3) (@row_major gops 25 3 3) pk_a pk_b); pks. Qed.

(** C = B A, A symmetric and packed *)
Theorem C89_symm_right : forall (O : ops) (m : mem O) B base n o t C a b,
  ext0 C = ext0 B -> ext1 B = n -> ext1 C = n ->
  array_holds m base (packed_elems t o n) a -> mat_holds m B b -> mwritable C -> allocated m (mcells C) ->
  disjoint (cells_from base (n * (n + 1) / 2)) (mcells C) -> disjoint (mcells B) (mcells C) ->
  succeeds (symmetric_matrix_product_right B (packed_mat base n t o ADefault) t C) m (fun _ m' =>
    mat_holds m' C (fun i j => bigsum n (fun k => b i k * sym_of t a k j)) /\ changes_only m m' (mcells C)).
Proof. exact (@packed_symm_right). Qed.
Print Assumptions C89_symm_right.
Example C89_symm_right_case :
  succeeds (symmetric_matrix_product_right (@row_major gops 16 3 3) (packed_mat 1 3 Lower ColMajor ADefault) Lower (@row_major gops 25 3 3)) pk_mem (fun _ m' =>
    mat_holds m' (@row_major gops 25 3 3) (fun i j => bigsum 3 (fun k => pk_b i k * sym_of Lower pk_a k j)) /\ changes_only pk_mem m' (mcells (@row_major gops 25 3 3))).
Proof. apply (C89_symm_right gops pk_mem (@row_major gops 16 3 3) 1 3 ColMajor Lower (@row_major gops 25 3 3) pk_a pk_b); pks. Qed.

(** C = A B, A Hermitian and packed *)
Theorem C89_hemm_left : forall (O : ops) (m : mem O) base n o t B C a b,
  ext0 C = n -> n = ext0 B -> ext1 C = ext1 B ->
  array_holds m base (packed_elems t o n) a -> mat_holds m B b -> mwritable C -> allocated m (mcells C) ->
  disjoint (cells_from base (n * (n + 1) / 2)) (mcells C) -> disjoint (mcells B) (mcells C) ->
  succeeds (hermitian_matrix_product_left (packed_mat base n t o ADefault) t B C) m (fun _ m' =>
    mat_holds m' C (fun i j => bigsum n (fun k => herm_of t a i k * b k j)) /\ changes_only m m' (mcells C)).
Proof. exact (@packed_hemm_left). Qed.
Print Assumptions C89_hemm_left.
Example C89_hemm_left_case :
  succeeds (hermitian_matrix_product_left (packed_mat 1 3 Lower ColMajor ADefault) Lower (@row_major gops 16 3 3) (@row_major gops 25 3 3)) pk_mem (fun _ m' =>
    mat_holds m' (@row_major gops 25 3 3) (fun i j => bigsum 3 (fun k => herm_of Lower pk_a i k * pk_b k j)) /\ changes_only pk_mem m' (mcells (@row_major gops 25 3 3))).
Proof. apply (C89_hemm_left gops pk_mem 1 3 ColMajor Lower (@row_major gops 16 3 3) (@row_major gops 25 3 3) pk_a pk_b); pks. Qed.

(** C = A B, A triangular and packed *)
Theorem C89_trmm_left : forall (O : ops) ty (m : mem O) base n o t d B C a b,
  ring_laws O -> fits ty (ext0 C) ->
  ext0 C = n -> n = ext0 B -> ext1 C = ext1 B ->
  array_holds m base (packed_elems t o n) a -> mat_holds m B b -> mwritable C -> allocated m (mcells C) ->
  disjoint (cells_from base (n * (n + 1) / 2)) (mcells C) -> disjoint (mcells B) (mcells C) ->
  succeeds (triangular_matrix_product_left ty (packed_mat base n t o ADefault) t d B C) m (fun _ m' =>
    mat_holds m' C (fun i j => bigsum n (fun k => tri_of t d a i k * b k j)) /\ changes_only m m' (mcells C)).
Proof. exact (@packed_trmm_left). Qed.
Print Assumptions C89_trmm_left.
Example C89_trmm_left_case :
  succeeds (triangular_matrix_product_left I32 (packed_mat 1 3 Lower ColMajor ADefault) Lower Explicit (@row_major gops 16 3 3) (@row_major gops 25 3 3)) pk_mem (fun _ m' =>
    mat_holds m' (@row_major gops 25 3 3) (fun i j => bigsum 3 (fun k => tri_of Lower Explicit pk_a i k * pk_b k j)) /\ changes_only pk_mem m' (mcells (@row_major gops 25 3 3))).
Proof. apply (C89_trmm_left gops I32 pk_mem 1 3 ColMajor Lower Explicit (@row_major gops 16 3 3) (@row_major gops 25 3 3) pk_a pk_b); pks. Qed.

(** C = B A, A triangular and packed *)
Theorem C89_trmm_right : forall (O : ops) ty (m : mem O) B base n o t d C a b,
  ring_laws O -> fits ty (ext1 C) ->
  ext0 C = ext0 B -> ext1 B = n -> ext1 C = n ->
  array_holds m base (packed_elems t o n) a -> mat_holds m B b -> mwritable C -> allocated m (mcells C) ->
  disjoint (cells_from base (n * (n + 1) / 2)) (mcells C) -> disjoint (mcells B) (mcells C) ->
  succeeds (triangular_matrix_product_right ty B (packed_mat base n t o ADefault) t d C) m (fun _ m' =>
    mat_holds m' C (fun i j => bigsum n (fun k => b i k * tri_of t d a k j)) /\ changes_only m m' (mcells C)).
Proof. exact (@packed_trmm_right). Qed.
Print Assumptions C89_trmm_right.
Example C89_trmm_right_case :
  succeeds (triangular_matrix_product_right I32 (@row_major gops 16 3 3) (packed_mat 1 3 Lower ColMajor ADefault) Lower Explicit (@row_major gops 25 3 3)) pk_mem (fun _ m' =>
    mat_holds m' (@row_major gops 25 3 3) (fun i j => bigsum 3 (fun k => pk_b i k * tri_of Lower Explicit pk_a k j)) /\ changes_only pk_mem m' (mcells (@row_major gops 25 3 3))).
Proof. apply (C89_trmm_right gops I32 pk_mem (@row_major gops 16 3 3) 1 3 ColMajor Lower Explicit (@row_major gops 25 3 3) pk_a pk_b); pks. Qed.

(** A += x x^T, A symmetric and packed *)
Theorem C89_syr : forall (O : ops) (m : mem O) x base n o t a f,
  vext x = n ->
  array_holds m base (packed_elems t o n) a -> vec_holds m x f -> disjoint (vcells x) (cells_from base (n * (n + 1) / 2)) ->
  succeeds (symmetric_matrix_rank_1_update x (packed_mat base n t o ADefault) t) m (fun _ m' =>
    array_holds m' base (packed_elems t o n) (fun i j => a i j + f i * f j) /\
    changes_only m m' (cells_from base (n * (n + 1) / 2))).
Proof. exact (@packed_syr). Qed.
Print Assumptions C89_syr.
Example C89_syr_case :
  succeeds (symmetric_matrix_rank_1_update (@vec_at gops 7 3) (packed_mat 1 3 Lower ColMajor ADefault) Lower) pk_mem (fun _ m' =>
    array_holds m' 1 (packed_elems Lower ColMajor 3) (fun i j => pk_a i j + pk_x i * pk_x j) /\
    changes_only pk_mem m' (cells_from 1 (3 * (3 + 1) / 2))).
Proof. apply (C89_syr gops pk_mem (@vec_at gops 7 3) 1 3 ColMajor Lower pk_a pk_x); pks. Qed.

(** A += alpha x x^T, A symmetric and packed *)
Theorem C89_syr_alpha : forall (O : ops) (m : mem O) alpha x base n o t a f,
  vext x = n ->
  array_holds m base (packed_elems t o n) a -> vec_holds m x f -> disjoint (vcells x) (cells_from base (n * (n + 1) / 2)) ->
  succeeds (symmetric_matrix_rank_1_update_alpha alpha x (packed_mat base n t o ADefault) t) m (fun _ m' =>
    array_holds m' base (packed_elems t o n) (fun i j => a i j + alpha * f i * f j) /\
    changes_only m m' (cells_from base (n * (n + 1) / 2))).
Proof. exact (@packed_syr_alpha). Qed.
Print Assumptions C89_syr_alpha.
Example C89_syr_alpha_case :
  succeeds (symmetric_matrix_rank_1_update_alpha (g 2 0) (@vec_at gops 7 3) (packed_mat 1 3 Lower ColMajor ADefault) Lower) pk_mem (fun _ m' =>
    array_holds m' 1 (packed_elems Lower ColMajor 3) (fun i j => pk_a i j + (g 2 0) * pk_x i * pk_x j) /\
    changes_only pk_mem m' (cells_from 1 (3 * (3 + 1) / 2))).
Proof. apply (C89_syr_alpha gops pk_mem (g 2 0) (@vec_at gops 7 3) 1 3 ColMajor Lower pk_a pk_x); pks. Qed.

(** A += x x^H, A Hermitian and packed *)
Theorem C89_her : forall (O : ops) (m : mem O) x base n o t a f,
  vext x = n ->
  array_holds m base (packed_elems t o n) a -> vec_holds m x f -> disjoint (vcells x) (cells_from base (n * (n + 1) / 2)) ->
  succeeds (hermitian_matrix_rank_1_update x (packed_mat base n t o ADefault) t) m (fun _ m' =>
    array_holds m' base (packed_elems t o n) (fun i j => herm_of t a i j + f i * conj (f j)) /\
    changes_only m m' (cells_from base (n * (n + 1) / 2))).
Proof. exact (@packed_her). Qed.
Print Assumptions C89_her.
Example C89_her_case :
  succeeds (hermitian_matrix_rank_1_update (@vec_at gops 7 3) (packed_mat 1 3 Lower ColMajor ADefault) Lower) pk_mem (fun _ m' =>
    array_holds m' 1 (packed_elems Lower ColMajor 3) (fun i j => herm_of Lower pk_a i j + pk_x i * conj (pk_x j)) /\
    changes_only pk_mem m' (cells_from 1 (3 * (3 + 1) / 2))).
Proof. apply (C89_her gops pk_mem (@vec_at gops 7 3) 1 3 ColMajor Lower pk_a pk_x); pks. Qed.

(** A += alpha x x^H, A Hermitian and packed *)
Theorem C89_her_alpha : forall (O : ops) (m : mem O) alpha x base n o t a f,
  vext x = n ->
  array_holds m base (packed_elems t o n) a -> vec_holds m x f -> disjoint (vcells x) (cells_from base (n * (n + 1) / 2)) ->
  succeeds (hermitian_matrix_rank_1_update_alpha alpha x (packed_mat base n t o ADefault) t) m (fun _ m' =>
    array_holds m' base (packed_elems t o n) (fun i j => herm_of t a i j + alpha * f i * conj (f j)) /\
    changes_only m m' (cells_from base (n * (n + 1) / 2))).
Proof. exact (@packed_her_alpha). Qed.
Print Assumptions C89_her_alpha.
Example C89_her_alpha_case :
  succeeds (hermitian_matrix_rank_1_update_alpha (g 2 0) (@vec_at gops 7 3) (packed_mat 1 3 Lower ColMajor ADefault) Lower) pk_mem (fun _ m' =>
    array_holds m' 1 (packed_elems Lower ColMajor 3) (fun i j => herm_of Lower pk_a i j + (g 2 0) * pk_x i * conj (pk_x j)) /\
    changes_only pk_mem m' (cells_from 1 (3 * (3 + 1) / 2))).
Proof. apply (C89_her_alpha gops pk_mem (g 2 0) (@vec_at gops 7 3) 1 3 ColMajor Lower pk_a pk_x); pks. Qed.

(** A += x y^T + y x^T, A symmetric and packed *)
Theorem C89_syr2 : forall (O : ops) (m : mem O) x y base n o t a f g,
  vext x = n -> vext y = n ->
  array_holds m base (packed_elems t o n) a -> vec_holds m x f -> vec_holds m y g -> disjoint (vcells x) (cells_from base (n * (n + 1) / 2)) -> disjoint (vcells y) (cells_from base (n * (n + 1) / 2)) ->
  succeeds (symmetric_matrix_rank_2_update x y (packed_mat base n t o ADefault) t) m (fun _ m' =>
    array_holds m' base (packed_elems t o n) (fun i j => a i j + (f i * g j + g i * f j)) /\
    changes_only m m' (cells_from base (n * (n + 1) / 2))).
Proof. exact (@packed_syr2). Qed.
Print Assumptions C89_syr2.
Example C89_syr2_case :
  succeeds (symmetric_matrix_rank_2_update (@vec_at gops 7 3) (@vec_at gops 10 3) (packed_mat 1 3 Lower ColMajor ADefault) Lower) pk_mem (fun _ m' =>
    array_holds m' 1 (packed_elems Lower ColMajor 3) (fun i j => pk_a i j + (pk_x i * pk_y j + pk_y i * pk_x j)) /\
    changes_only pk_mem m' (cells_from 1 (3 * (3 + 1) / 2))).
Proof. apply (C89_syr2 gops pk_mem (@vec_at gops 7 3) (@vec_at gops 10 3) 1 3 ColMajor Lower pk_a pk_x pk_y); pks. Qed.

(** A += x y^H + y x^H, A Hermitian and packed *)
Theorem C89_her2 : forall (O : ops) (m : mem O) x y base n o t a f g,
  vext x = n -> vext y = n ->
  array_holds m base (packed_elems t o n) a -> vec_holds m x f -> vec_holds m y g -> disjoint (vcells x) (cells_from base (n * (n + 1) / 2)) -> disjoint (vcells y) (cells_from base (n * (n + 1) / 2)) ->
  succeeds (hermitian_matrix_rank_2_update x y (packed_mat base n t o ADefault) t) m (fun _ m' =>
    array_holds m' base (packed_elems t o n) (fun i j => herm_of t a i j + (f i * conj (g j) + g i * conj (f j))) /\
    changes_only m m' (cells_from base (n * (n + 1) / 2))).
Proof. exact (@packed_her2). Qed.
Print Assumptions C89_her2.
Example C89_her2_case :
  succeeds (hermitian_matrix_rank_2_update (@vec_at gops 7 3) (@vec_at gops 10 3) (packed_mat 1 3 Lower ColMajor ADefault) Lower) pk_mem (fun _ m' =>
    array_holds m' 1 (packed_elems Lower ColMajor 3) (fun i j => herm_of Lower pk_a i j + (pk_x i * conj (pk_y j) + pk_y i * conj (pk_x j))) /\
    changes_only pk_mem m' (cells_from 1 (3 * (3 + 1) / 2))).
Proof. apply (C89_her2 gops pk_mem (@vec_at gops 7 3) (@vec_at gops 10 3) 1 3 ColMajor Lower pk_a pk_x pk_y); pks. Qed.

(** C += A A^T, C symmetric and packed *)
Theorem C89_syrk : forall (O : ops) (m : mem O) A base n o t a c,
  ext0 A = n ->
  mat_holds m A a -> array_holds m base (packed_elems t o n) c -> disjoint (mcells A) (cells_from base (n * (n + 1) / 2)) ->
  succeeds (symmetric_matrix_rank_k_update A (packed_mat base n t o ADefault) t) m (fun _ m' =>
    array_holds m' base (packed_elems t o n) (fun i j => sum_from (c i j) 0 (ext1 A) (fun k => a i k * a j k)) /\
    changes_only m m' (cells_from base (n * (n + 1) / 2))).
Proof. exact (@packed_syrk). Qed.
Print Assumptions C89_syrk.
Example C89_syrk_case :
  succeeds (symmetric_matrix_rank_k_update (@row_major gops 16 3 3) (packed_mat 1 3 Lower ColMajor ADefault) Lower) pk_mem (fun _ m' =>
    array_holds m' 1 (packed_elems Lower ColMajor 3) (fun i j => sum_from (pk_a i j) 0 (ext1 (@row_major gops 16 3 3)) (fun k => pk_b i k * pk_b j k)) /\
    changes_only pk_mem m' (cells_from 1 (3 * (3 + 1) / 2))).
Proof. apply (C89_syrk gops pk_mem (@row_major gops 16 3 3) 1 3 ColMajor Lower pk_b pk_a); pks. Qed.

(** C += alpha A A^T, C symmetric and packed *)
Theorem C89_syrk_alpha : forall (O : ops) (m : mem O) alpha A base n o t a c,
  ext0 A = n ->
  mat_holds m A a -> array_holds m base (packed_elems t o n) c -> disjoint (mcells A) (cells_from base (n * (n + 1) / 2)) ->
  succeeds (symmetric_matrix_rank_k_update_alpha alpha A (packed_mat base n t o ADefault) t) m (fun _ m' =>
    array_holds m' base (packed_elems t o n) (fun i j => sum_from (c i j) 0 (ext1 A) (fun k => alpha * a i k * a j k)) /\
    changes_only m m' (cells_from base (n * (n + 1) / 2))).
Proof. exact (@packed_syrk_alpha). Qed.
Print Assumptions C89_syrk_alpha.
Example C89_syrk_alpha_case :
  succeeds (symmetric_matrix_rank_k_update_alpha (g 2 0) (@row_major gops 16 3 3) (packed_mat 1 3 Lower ColMajor ADefault) Lower) pk_mem (fun _ m' =>
    array_holds m' 1 (packed_elems Lower ColMajor 3) (fun i j => sum_from (pk_a i j) 0 (ext1 (@row_major gops 16 3 3)) (fun k => (g 2 0) * pk_b i k * pk_b j k)) /\
    changes_only pk_mem m' (cells_from 1 (3 * (3 + 1) / 2))).
Proof. apply (C89_syrk_alpha gops pk_mem (g 2 0) (@row_major gops 16 3 3) 1 3 ColMajor Lower pk_b pk_a); pks. Qed.

(** C += A A^H, C Hermitian and packed *)
Theorem C89_herk : forall (O : ops) (m : mem O) A base n o t a c,
  ext0 A = n ->
  mat_holds m A a -> array_holds m base (packed_elems t o n) c -> disjoint (mcells A) (cells_from base (n * (n + 1) / 2)) ->
  succeeds (hermitian_matrix_rank_k_update A (packed_mat base n t o ADefault) t) m (fun _ m' =>
    array_holds m' base (packed_elems t o n) (fun i j => sum_from (herm_of t c i j) 0 (ext1 A) (fun k => a i k * conj (a j k))) /\
    changes_only m m' (cells_from base (n * (n + 1) / 2))).
Proof. exact (@packed_herk). Qed.
Print Assumptions C89_herk.
Example C89_herk_case :
  succeeds (hermitian_matrix_rank_k_update (@row_major gops 16 3 3) (packed_mat 1 3 Lower ColMajor ADefault) Lower) pk_mem (fun _ m' =>
    array_holds m' 1 (packed_elems Lower ColMajor 3) (fun i j => sum_from (herm_of Lower pk_a i j) 0 (ext1 (@row_major gops 16 3 3)) (fun k => pk_b i k * conj (pk_b j k))) /\
    changes_only pk_mem m' (cells_from 1 (3 * (3 + 1) / 2))).
Proof. apply (C89_herk gops pk_mem (@row_major gops 16 3 3) 1 3 ColMajor Lower pk_b pk_a); pks. Qed.

(** C += alpha A A^H, C Hermitian and packed *)
Theorem C89_herk_alpha : forall (O : ops) (m : mem O) alpha A base n o t a c,
  ext0 A = n ->
  mat_holds m A a -> array_holds m base (packed_elems t o n) c -> disjoint (mcells A) (cells_from base (n * (n + 1) / 2)) ->
  succeeds (hermitian_matrix_rank_k_update_alpha alpha A (packed_mat base n t o ADefault) t) m (fun _ m' =>
    array_holds m' base (packed_elems t o n) (fun i j => sum_from (herm_of t c i j) 0 (ext1 A) (fun k => alpha * a i k * conj (a j k))) /\
    changes_only m m' (cells_from base (n * (n + 1) / 2))).
Proof. exact (@packed_herk_alpha). Qed.
Print Assumptions C89_herk_alpha.
Example C89_herk_alpha_case :
  succeeds (hermitian_matrix_rank_k_update_alpha (g 2 0) (@row_major gops 16 3 3) (packed_mat 1 3 Lower ColMajor ADefault) Lower) pk_mem (fun _ m' =>
    array_holds m' 1 (packed_elems Lower ColMajor 3) (fun i j => sum_from (herm_of Lower pk_a i j) 0 (ext1 (@row_major gops 16 3 3)) (fun k => (g 2 0) * pk_b i k * conj (pk_b j k))) /\
    changes_only pk_mem m' (cells_from 1 (3 * (3 + 1) / 2))).
Proof. apply (C89_herk_alpha gops pk_mem (g 2 0) (@row_major gops 16 3 3) 1 3 ColMajor Lower pk_b pk_a); pks. Qed.

(** C += A B^T + B A^T, C symmetric and packed *)
Theorem C89_syr2k : forall (O : ops) (m : mem O) A B base n o t a b c,
  ext0 A = n -> ext0 B = n -> ext1 B = ext1 A ->
  mat_holds m A a -> mat_holds m B b -> array_holds m base (packed_elems t o n) c -> disjoint (mcells A) (cells_from base (n * (n + 1) / 2)) -> disjoint (mcells B) (cells_from base (n * (n + 1) / 2)) ->
  succeeds (symmetric_matrix_rank_2k_update A B (packed_mat base n t o ADefault) t) m (fun _ m' =>
    array_holds m' base (packed_elems t o n) (fun i j => sum_from (c i j) 0 (ext1 A) (fun k => a i k * b j k + b i k * a j k)) /\
    changes_only m m' (cells_from base (n * (n + 1) / 2))).
Proof. exact (@packed_syr2k). Qed.
Print Assumptions C89_syr2k.
Example C89_syr2k_case :
  succeeds (symmetric_matrix_rank_2k_update (@row_major gops 16 3 3) (@col_major gops 16 3 3) (packed_mat 1 3 Lower ColMajor ADefault) Lower) pk_mem (fun _ m' =>
    array_holds m' 1 (packed_elems Lower ColMajor 3) (fun i j => sum_from (pk_a i j) 0 (ext1 (@row_major gops 16 3 3)) (fun k => pk_b i k * (fun i j => pk_b j i) j k + (fun i j => pk_b j i) i k * pk_b j k)) /\
    changes_only pk_mem m' (cells_from 1 (3 * (3 + 1) / 2))).
Proof. apply (C89_syr2k gops pk_mem (@row_major gops 16 3 3) (@col_major gops 16 3 3) 1 3 ColMajor Lower pk_b (fun i j => pk_b j i) pk_a); pks. Qed.

(** C += A B^H + B A^H, C Hermitian and packed *)
Theorem C89_her2k : forall (O : ops) (m : mem O) A B base n o t a b c,
  ext0 A = n -> ext0 B = n -> ext1 B = ext1 A ->
  mat_holds m A a -> mat_holds m B b -> array_holds m base (packed_elems t o n) c -> disjoint (mcells A) (cells_from base (n * (n + 1) / 2)) -> disjoint (mcells B) (cells_from base (n * (n + 1) / 2)) ->
  succeeds (hermitian_matrix_rank_2k_update A B (packed_mat base n t o ADefault) t) m (fun _ m' =>
    array_holds m' base (packed_elems t o n) (fun i j => sum_from (herm_of t c i j) 0 (ext1 A) (fun k => a i k * conj (b j k) + b i k * conj (a j k))) /\
    changes_only m m' (cells_from base (n * (n + 1) / 2))).
Proof. exact (@packed_her2k). Qed.
Print Assumptions C89_her2k.
Example C89_her2k_case :
  succeeds (hermitian_matrix_rank_2k_update (@row_major gops 16 3 3) (@col_major gops 16 3 3) (packed_mat 1 3 Lower ColMajor ADefault) Lower) pk_mem (fun _ m' =>
    array_holds m' 1 (packed_elems Lower ColMajor 3) (fun i j => sum_from (herm_of Lower pk_a i j) 0 (ext1 (@row_major gops 16 3 3)) (fun k => pk_b i k * conj ((fun i j => pk_b j i) j k) + (fun i j => pk_b j i) i k * conj (pk_b j k))) /\
    changes_only pk_mem m' (cells_from 1 (3 * (3 + 1) / 2))).
Proof. apply (C89_her2k gops pk_mem (@row_major gops 16 3 3) (@col_major gops 16 3 3) 1 3 ColMajor Lower pk_b (fun i j => pk_b j i) pk_a); pks. Qed.

(** The algorithms do not compare the triangle of the layout with the tag of the call.  With the other tag a symmetric matrix
    acts as before, a Hermitian matrix as its transpose. *)
Theorem C89_other_symv : forall (O : ops) (m : mem O) base n o t x y a f,
  vext x = n -> vext y = n ->
  array_holds m base (packed_elems t o n) a -> vec_holds m x f -> vwritable y -> allocated m (vcells y) ->
  disjoint (cells_from base (n * (n + 1) / 2)) (vcells y) -> disjoint (vcells x) (vcells y) ->
  succeeds (symmetric_matrix_vector_product (packed_mat base n t o ADefault) (opposite_triangle t) x y) m (fun _ m' =>
    vec_holds m' y (fun i => bigsum n (fun j => sym_of t a i j * f j)) /\ changes_only m m' (vcells y)).
Proof. exact (@other_symv). Qed.
Print Assumptions C89_other_symv.
Example C89_other_symv_case : succeeds (symmetric_matrix_vector_product (packed_mat 1 3 Lower ColMajor ADefault) Upper (vec_at 7 3) (vec_at 10 3)) pk_mem
  (fun _ m' => vec_holds m' (vec_at 10 3) (fun i => bigsum 3 (fun j => sym_of Lower pk_a i j * pk_x j)) /\ changes_only pk_mem m' (vcells (@vec_at gops 10 3))).
Proof. apply (C89_other_symv gops pk_mem 1 3 ColMajor Lower); pks. Qed.
Theorem C89_other_hemv : forall (O : ops) (m : mem O) base n o t x y a f,
  vext x = n -> vext y = n ->
  array_holds m base (packed_elems t o n) a -> vec_holds m x f -> vwritable y -> allocated m (vcells y) ->
  disjoint (cells_from base (n * (n + 1) / 2)) (vcells y) -> disjoint (vcells x) (vcells y) ->
  succeeds (hermitian_matrix_vector_product (packed_mat base n t o ADefault) (opposite_triangle t) x y) m (fun _ m' =>
    vec_holds m' y (fun i => bigsum n (fun j => herm_of t a j i * f j)) /\ changes_only m m' (vcells y)).
Proof. exact (@other_hemv). Qed.
Print Assumptions C89_other_hemv.
Example C89_other_hemv_case : succeeds (hermitian_matrix_vector_product (packed_mat 1 3 Lower ColMajor ADefault) Upper (vec_at 7 3) (vec_at 10 3)) pk_mem
  (fun _ m' => vec_holds m' (vec_at 10 3) (fun i => bigsum 3 (fun j => herm_of Lower pk_a j i * pk_x j)) /\ changes_only pk_mem m' (vcells (@vec_at gops 10 3))).
Proof. apply (C89_other_hemv gops pk_mem 1 3 ColMajor Lower); pks. Qed.

(** Kokkos overloads name layout_blas_packed in their constraints, but no call with a packed matrix compiles, whatever the
    triangle and the order: there is no view for such a matrix. *)
Theorem C89_kokkos_refuted : forall (O : ops) base n t o t' d alpha (x y : vec O) (B C : mat O),
  let P := packed_mat base n t o ADefault in
  vext x = n -> vext y = n -> ext0 B = n -> ext1 B = n -> ext0 C = n -> ext1 C = n -> mlay B = LRight -> mlay C = LRight ->
  kk_symmetric_matrix_rank_1_update x P t' = PIllFormed /\
  kk_hermitian_matrix_rank_1_update x P t' = PIllFormed /\
  kk_symmetric_matrix_rank_2_update x y P t' = PIllFormed /\
  kk_hermitian_matrix_rank_2_update x y P t' = PIllFormed /\
  kk_symmetric_matrix_rank_k_update alpha B P t' = PIllFormed /\
  kk_hermitian_matrix_rank_k_update alpha B P t' = PIllFormed /\
  kk_symmetric_matrix_rank_2k_update B C P t' = PIllFormed /\
  kk_hermitian_matrix_rank_2k_update B C P t' = PIllFormed /\
  kk_symmetric_matrix_left_product P t' B C = PIllFormed /\
  kk_symmetric_matrix_right_product P t' B C = PIllFormed /\
  kk_hermitian_matrix_left_product P t' B C = PIllFormed /\
  kk_hermitian_matrix_right_product P t' B C = PIllFormed /\
  kk_triangular_matrix_left_product_unit P t' B C = PIllFormed /\
  kk_triangular_matrix_right_product_unit P t' B C = PIllFormed /\
  kb_triangular_matrix_vector_solve P t' d x y = KIllFormed /\
  kb_triangular_matrix_matrix_left_solve P t' d B C = KIllFormed /\
  kb_triangular_matrix_matrix_right_solve P t' d B C = KIllFormed.
Proof. exact kokkos_packed. Qed.
Print Assumptions C89_kokkos_refuted.
Example C89_kokkos_refuted_case :
  kk_symmetric_matrix_rank_1_update (vec_at 7 3) (packed_mat 1 3 Lower ColMajor (@ADefault gops)) Lower = PIllFormed.
Proof.
  apply (fun H => proj1 (C89_kokkos_refuted gops 1 3 Lower ColMajor Lower Explicit zero (vec_at 7 3) (vec_at 10 3)
    (row_major 16 3 3) (row_major 25 3 3) eq_refl eq_refl eq_refl eq_refl eq_refl eq_refl eq_refl H)). reflexivity.
Qed.

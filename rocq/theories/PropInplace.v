(** C87: the in-place triangular products, operation by operation in any arithmetic, and their error bounds in IEEE
    arithmetic for every binary format. *)
From Coq Require Import List Arith ZArith Reals Lia Lra Bool.
From Flocq Require Import Core.Core IEEE754.BinarySingleNaN.
From Verif Require Import Mem Scalar View Spec SpecR SpecF SpecF2 SpecInp Idx Norm Ieee Blas1 Blas2 Blas3 Wp PfInplace PfInplaceF Inst PropFloat.
Import ListNotations.
Local Open Scope nat_scope.
Local Open Scope sc_scope.

(** y = A y: the diagonal term comes first, then the others moving away from the diagonal. *)
Theorem C87_trmv : forall (O : ops) (m : mem O) A t d y a f,
  ext0 A = ext1 A -> vext y = ext0 A ->
  mat_holds_on m A (stored t d) a -> vec_holds m y f -> vwritable y ->
  disjoint (mcells_on A (stored t d)) (vcells y) ->
  succeeds (triangular_matrix_vector_product_inplace A t d y) m (fun _ m' =>
    vec_holds m' y (fun i => added (times_diag d (f i * a i i) (f i)) (row_order t (ext1 A) i) (fun j => a i j * f j)) /\
    changes_only m m' (vcells y)).
Proof. exact (@trmv_inplace_exact). Qed.
Print Assumptions C87_trmv.

(** 2 x 2 integer matrices as elements: products do not commute, and the order of the factors of the diagonal term shows.
    y = ([0 1; 0 0]), A = ([0 0; 1 0]): y A = [1 0; 0 0] is stored, while A y = [0 0; 0 1]. *)
Example C87_trmv_case :
  let m : mem m2ops := mem_of [((0, 0), (1, 0)); ((0, 1), (0, 0))]%Z in let y : vec m2ops := vec_at 1 1 in
  succeeds (triangular_matrix_vector_product_inplace (row_major 0 1 1) Lower Explicit y) m (fun _ m' =>
    vec_holds m' y (@velt m2ops [((1, 0), (0, 0))]%Z) /\ changes_only m m' (vcells y)).
Proof.
  intros m y. eapply wp_conseq.
  - apply (C87_trmv m2ops m (row_major 0 1 1) Lower Explicit y (@melt m2ops [[((0, 0), (1, 0))]]%Z) (@velt m2ops [((0, 1), (0, 0))]%Z)); concrete.
  - intros _ m' [K1 K2]; split; auto. eapply vec_holds_ext; [|exact K1]. intros i Hi. destruct i as [|i]; [reflexivity|simpl in Hi; lia].
Qed.

(** C = A C *)
Theorem C87_trmm_left : forall (O : ops) (m : mem O) A t d C a c,
  ext0 A = ext1 A -> ext0 C = ext0 A ->
  mat_holds_on m A (stored t d) a -> mat_holds m C c -> mwritable C ->
  disjoint (mcells_on A (stored t d)) (mcells C) ->
  succeeds (triangular_matrix_left_product A t d C) m (fun _ m' =>
    mat_holds m' C (fun i j => added (times_diag d (a i i * c i j) (c i j)) (row_order t (ext1 A) i) (fun k => a i k * c k j)) /\
    changes_only m m' (mcells C)).
Proof. exact (@trmm_left_inplace_exact). Qed.
Print Assumptions C87_trmm_left.

(** Binary64: the last row of [1 . .; 0 1 .; 2^53 1 1] (1, 1, 1)^T is (1 + 1) + 2^53 = 2^53 + 2. *)
Example C87_trmm_left_case :
  let m : mem F64 := mem_of [fl 1 0; fl 77 0; fl 77 0; fl 0 0; fl 1 0; fl 77 0; fl 1 53; fl 1 0; fl 1 0; fl 1 0; fl 1 0; fl 1 0] in
  let C : mat F64 := col_major 9 3 1 in
  let a := fm [[fl 1 0; fl 77 0; fl 77 0]; [fl 0 0; fl 1 0; fl 77 0]; [fl 1 53; fl 1 0; fl 1 0]] in
  let c := fm [[fl 1 0]; [fl 1 0]; [fl 1 0]] in
  succeeds (triangular_matrix_left_product (row_major 0 3 3) Lower Explicit C) m (fun _ m' =>
    mat_holds m' C (fun i j => added (a i i * c i j) (rev (seq 0 i)) (fun k => a i k * c k j)) /\ changes_only m m' (mcells C)) /\
  B2SF (@added F64 (a 2 2 * c 2 0) (rev (seq 0 2)) (fun k => a 2 k * c k 0)) = B2SF (fl 9007199254740994 0).
Proof.
  intros m C a c. split.
  - apply (C87_trmm_left F64 m (row_major 0 3 3) Lower Explicit C a c); unfold m, C, a, c; concrete.
  - vm_compute. reflexivity.
Qed.

(** C = C A *)
Theorem C87_trmm_right : forall (O : ops) (m : mem O) A t d C a c,
  ext0 A = ext1 A -> ext1 C = ext0 A ->
  mat_holds_on m A (stored t d) a -> mat_holds m C c -> mwritable C ->
  disjoint (mcells_on A (stored t d)) (mcells C) ->
  succeeds (triangular_matrix_right_product A t d C) m (fun _ m' =>
    mat_holds m' C (fun i j => added (times_diag d (c i j * a j j) (c i j)) (col_order t (ext1 A) j) (fun k => c i k * a k j)) /\
    changes_only m m' (mcells C)).
Proof. exact (@trmm_right_inplace_exact). Qed.
Print Assumptions C87_trmm_right.

Example C87_trmm_right_case :
  let m : mem zops := mem_of [2; 3; 77; 5; 7; 11; 13; 17]%Z in let C : mat zops := row_major 4 2 2 in
  succeeds (triangular_matrix_right_product (row_major 0 2 2) Upper Explicit C) m (fun _ m' =>
    mat_holds m' C (zm [[14; 76]; [26; 124]]%Z) /\ changes_only m m' (mcells C)).
Proof.
  intros m C. eapply wp_conseq.
  - apply (C87_trmm_right zops m (row_major 0 2 2) Upper Explicit C (zm [[2;3];[77;5]]%Z) (zm [[7;11];[13;17]]%Z)); concrete.
  - intros _ m' [K1 K2]; split; auto. eapply mat_holds_on_ext; [|exact K1]. intros i j Hi Hj _.
    destruct i as [|[|i]]; destruct j as [|[|j]]; try (simpl in Hi, Hj; lia); reflexivity.
Qed.

(** In place and out of place are not the same function of binary64 inputs: with the lower triangle of the case above the
    product stored elsewhere is (2^53 + 1) + 1 = 2^53, the product in place 2^53 + 2. *)
Example C87_order_matters :
  let m : mem F64 := mem_of [fl 1 0; fl 77 0; fl 77 0; fl 0 0; fl 1 0; fl 77 0; fl 1 53; fl 1 0; fl 1 0; fl 1 0; fl 1 0; fl 1 0; fl 0 0; fl 0 0; fl 0 0] in
  match run (triangular_matrix_vector_product (row_major 0 3 3) Lower Explicit (vec_at 9 3) (vec_at 12 3)) m,
        run (triangular_matrix_vector_product_inplace (row_major 0 3 3) Lower Explicit (vec_at 9 3)) m with
  | Ok _ m1, Ok _ m2 => match m1 14, m2 11 with Some v, Some w =>
      (B2SF v, B2SF w) = (B2SF (fl 9007199254740992 0), B2SF (fl 9007199254740994 0)) | _, _ => False end
  | _, _ => False
  end.
Proof. vm_compute. reflexivity. Qed.

(** y = A y *)
Theorem C87_trmv_float : forall prec emax (Hp : Prec_gt_0 prec) (He : Prec_lt_emax prec emax) (m : mem (ieee_ops prec emax Hp He)) A t d y a f,
  ext0 A = ext1 A -> vext y = ext0 A ->
  mat_holds_on m A (stored t d) a -> vec_holds m y f -> vwritable y ->
  disjoint (mcells_on A (stored t d)) (vcells y) ->
  succeeds (triangular_matrix_vector_product_inplace A t d y) m (fun _ m' =>
    (exists r, vec_holds m' y r /\ forall i, i < vext y -> tri_accurate (ext1 A) t d (ext1 A) i (B754_zero false) a f (r i)) /\
    changes_only m m' (vcells y)).
Proof. exact (@trmv_inplace_float). Qed.
Print Assumptions C87_trmv_float.

Example C87_trmv_float_case :
  let m : mem F64 := mem_of [fl 1 (-1); fl 3 0; fl 5 (-60); fl 1 0; fl 1 0; fl 1 (-54); fl 7 2; fl 3 (-3)] in
  let A : mat F64 := row_major 0 2 2 in let a := fm [[fl 1 (-1); fl 3 0]; [fl 5 (-60); fl 1 0]] in
  let y : vec F64 := vec_at 4 2 in let f := fv [fl 1 0; fl 1 (-54)] in
  succeeds (triangular_matrix_vector_product_inplace A Lower Explicit y) m (fun _ m' =>
    (exists r, vec_holds m' y r /\ forall i, i < 2 -> tri_accurate 2 Lower Explicit 2 i (B754_zero false) a f (r i)) /\ changes_only m m' (vcells y)).
Proof.
  intros. apply (C87_trmv_float 53 1024 prec53 emax1024 m A Lower Explicit y a f); subst m A; subst y; unfold a, f; concrete.
Qed.

(** C = A C *)
Theorem C87_trmm_left_float : forall prec emax (Hp : Prec_gt_0 prec) (He : Prec_lt_emax prec emax) (m : mem (ieee_ops prec emax Hp He)) A t d C a c,
  ext0 A = ext1 A -> ext0 C = ext0 A ->
  mat_holds_on m A (stored t d) a -> mat_holds m C c -> mwritable C ->
  disjoint (mcells_on A (stored t d)) (mcells C) ->
  succeeds (triangular_matrix_left_product A t d C) m (fun _ m' =>
    (exists r, mat_holds m' C r /\ forall i j, i < ext0 C -> j < ext1 C ->
       tri_accurate (ext1 A) t d (ext1 A) i (B754_zero false) a (fun k => c k j) (r i j)) /\
    changes_only m m' (mcells C)).
Proof. exact (@trmm_left_inplace_float). Qed.
Print Assumptions C87_trmm_left_float.

Example C87_trmm_left_float_case :
  let m : mem F64 := mem_of [fl 1 (-1); fl 3 0; fl 5 (-60); fl 1 0; fl 1 0; fl 1 (-54); fl 7 2; fl 3 (-3)] in
  let A : mat F64 := row_major 0 2 2 in let a := fm [[fl 1 (-1); fl 3 0]; [fl 5 (-60); fl 1 0]] in
  let C : mat F64 := row_major 4 2 2 in let c := fm [[fl 1 0; fl 1 (-54)]; [fl 7 2; fl 3 (-3)]] in
  succeeds (triangular_matrix_left_product A Upper ImplicitUnit C) m (fun _ m' =>
    (exists r, mat_holds m' C r /\ forall i j, i < 2 -> j < 2 ->
       tri_accurate 2 Upper ImplicitUnit 2 i (B754_zero false) a (fun k => c k j) (r i j)) /\ changes_only m m' (mcells C)).
Proof.
  intros. apply (C87_trmm_left_float 53 1024 prec53 emax1024 m A Upper ImplicitUnit C a c); subst m A; subst C; unfold a, c; concrete.
Qed.

(** C = C A *)
Theorem C87_trmm_right_float : forall prec emax (Hp : Prec_gt_0 prec) (He : Prec_lt_emax prec emax) (m : mem (ieee_ops prec emax Hp He)) A t d C a c,
  ext0 A = ext1 A -> ext1 C = ext0 A ->
  mat_holds_on m A (stored t d) a -> mat_holds m C c -> mwritable C ->
  disjoint (mcells_on A (stored t d)) (mcells C) ->
  succeeds (triangular_matrix_right_product A t d C) m (fun _ m' =>
    (exists r, mat_holds m' C r /\ forall i j, i < ext0 C -> j < ext1 C ->
       tri_accurate_r (ext1 A) t d (ext1 A) j (B754_zero false) a (c i) (r i j)) /\
    changes_only m m' (mcells C)).
Proof. exact (@trmm_right_inplace_float). Qed.
Print Assumptions C87_trmm_right_float.

Example C87_trmm_right_float_case :
  let m : mem F64 := mem_of [fl 1 (-1); fl 3 0; fl 5 (-60); fl 1 0; fl 1 0; fl 1 (-54); fl 7 2; fl 3 (-3)] in
  let A : mat F64 := row_major 0 2 2 in let a := fm [[fl 1 (-1); fl 3 0]; [fl 5 (-60); fl 1 0]] in
  let C : mat F64 := row_major 4 2 2 in let c := fm [[fl 1 0; fl 1 (-54)]; [fl 7 2; fl 3 (-3)]] in
  succeeds (triangular_matrix_right_product A Lower Explicit C) m (fun _ m' =>
    (exists r, mat_holds m' C r /\ forall i j, i < 2 -> j < 2 ->
       tri_accurate_r 2 Lower Explicit 2 j (B754_zero false) a (c i) (r i j)) /\ changes_only m m' (mcells C)).
Proof.
  intros. apply (C87_trmm_right_float 53 1024 prec53 emax1024 m A Lower Explicit C a c); subst m A; subst C; unfold a, c; concrete.
Qed.


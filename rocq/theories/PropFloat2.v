(** C70: error bounds of symmetric and triangular products and of rank updates in IEEE arithmetic, for every binary
    format: precision [prec], largest exponent [emax] (53 and 1024 for double). *)
From Coq Require Import List Arith ZArith Reals Lia Lra Bool.
From Flocq Require Import Core.Core IEEE754.BinarySingleNaN.
From Verif Require Import Mem Scalar View Spec SpecR SpecF SpecF2 Idx Norm Ieee Blas1 Blas2 Blas3 Wp PfFloat2 Inst PropFloat.
Import ListNotations.
Local Open Scope nat_scope.

(** y = A x, A symmetric *)
Theorem C70_symv : forall prec emax (Hp : Prec_gt_0 prec) (He : Prec_lt_emax prec emax) (m : mem (ieee_ops prec emax Hp He)) A t x y a f,
  ext0 A = ext1 A -> vext x = ext1 A -> vext y = ext0 A ->
  mat_holds_on m A (in_tri t) a -> vec_holds m x f -> vwritable y -> allocated m (vcells y) ->
  disjoint (mcells_on A (in_tri t)) (vcells y) -> disjoint (vcells x) (vcells y) ->
  succeeds (symmetric_matrix_vector_product A t x y) m (fun _ m' =>
    (exists r, vec_holds m' y r /\ forall i, i < vext y -> accurate (ext1 A) (ext1 A) (B754_zero false) (@sym_of (ieee_ops prec emax Hp He) t a i) f (r i)) /\
    changes_only m m' (vcells y)).
Proof. exact (@symv_float). Qed.
Print Assumptions C70_symv.

Example C70_symv_case :
  let m : mem F64 := mem_of [fl 1 (-1); fl 3 0; fl 5 (-60); fl 1 0; fl 1 0; fl 1 (-54); fl 7 2; fl 3 (-3); fl 1 0; fl 1 (-54); fl 3 0; fl 5 (-1); fl 0 0; fl 0 0; fl 7 0; fl 1 30; fl 1 1; fl 9 0] in
  let A : mat F64 := row_major 0 2 2 in let t := Lower in let x : vec F64 := vec_at 8 2 in
  let y : vec F64 := vec_at 12 2 in let a := fm [[fl 1 (-1); fl 3 0]; [fl 5 (-60); fl 1 0]] in
  let f := fv [fl 1 0; fl 1 (-54)] in
  succeeds (symmetric_matrix_vector_product A t x y) m (fun _ m' =>
    (exists r, vec_holds m' y r /\ forall i, i < vext y -> accurate (ext1 A) (ext1 A) (@zero F64) (@sym_of F64 t a i) f (r i)) /\
    changes_only m m' (vcells y)).
Proof.
  intros m A t x y a f. apply (C70_symv 53 1024 prec53 emax1024 m A t x y a f);
    unfold m, A, t, x, y, a, f; concrete.
Qed.

(** z = y + A x, A symmetric *)
Theorem C70_symv_upd : forall prec emax (Hp : Prec_gt_0 prec) (He : Prec_lt_emax prec emax) (m : mem (ieee_ops prec emax Hp He)) A t x y z a f g,
  ext0 A = ext1 A -> vext x = ext1 A -> vext y = ext0 A -> vext z = ext0 A ->
  mat_holds_on m A (in_tri t) a -> vec_holds m x f -> vec_holds m y g -> vwritable z -> allocated m (vcells z) ->
  disjoint (mcells_on A (in_tri t)) (vcells z) -> disjoint (vcells x) (vcells z) -> disjoint_or_aligned_v y z ->
  succeeds (symmetric_matrix_vector_product_upd A t x y z) m (fun _ m' =>
    (exists r, vec_holds m' z r /\ forall i, i < vext z -> accurate (ext1 A + 1) (ext1 A) (g i) (@sym_of (ieee_ops prec emax Hp He) t a i) f (r i)) /\
    changes_only m m' (vcells z)).
Proof. exact (@symv_upd_float). Qed.
Print Assumptions C70_symv_upd.

Example C70_symv_upd_case :
  let m : mem F64 := mem_of [fl 1 (-1); fl 3 0; fl 5 (-60); fl 1 0; fl 1 0; fl 1 (-54); fl 7 2; fl 3 (-3); fl 1 0; fl 1 (-54); fl 3 0; fl 5 (-1); fl 0 0; fl 0 0; fl 7 0; fl 1 30; fl 1 1; fl 9 0] in
  let A : mat F64 := row_major 0 2 2 in let t := Lower in let x : vec F64 := vec_at 8 2 in
  let y : vec F64 := vec_at 10 2 in let z : vec F64 := vec_at 12 2 in
  let a := fm [[fl 1 (-1); fl 3 0]; [fl 5 (-60); fl 1 0]] in let f := fv [fl 1 0; fl 1 (-54)] in
  let g := fv [fl 3 0; fl 5 (-1)] in
  succeeds (symmetric_matrix_vector_product_upd A t x y z) m (fun _ m' =>
    (exists r, vec_holds m' z r /\ forall i, i < vext z -> accurate (ext1 A + 1) (ext1 A) (g i) (@sym_of F64 t a i) f (r i)) /\
    changes_only m m' (vcells z)).
Proof.
  intros m A t x y z a f g. apply (C70_symv_upd 53 1024 prec53 emax1024 m A t x y z a f g);
    unfold m, A, t, x, y, z, a, f, g; concrete.
Qed.

(** C = A B, A symmetric *)
Theorem C70_symm_left : forall prec emax (Hp : Prec_gt_0 prec) (He : Prec_lt_emax prec emax) (m : mem (ieee_ops prec emax Hp He)) A t B C a b,
  ext0 A = ext1 A -> ext0 C = ext0 A -> ext1 A = ext0 B -> ext1 C = ext1 B ->
  mat_holds_on m A (in_tri t) a -> mat_holds m B b -> mwritable C -> allocated m (mcells C) ->
  disjoint (mcells_on A (in_tri t)) (mcells C) -> disjoint (mcells B) (mcells C) ->
  succeeds (symmetric_matrix_product_left A t B C) m (fun _ m' =>
    (exists r, mat_holds m' C r /\ forall i j, i < ext0 C -> j < ext1 C ->
       accurate (ext1 A) (ext1 A) (B754_zero false) (@sym_of (ieee_ops prec emax Hp He) t a i) (fun k => b k j) (r i j)) /\
    changes_only m m' (mcells C)).
Proof. exact (@symm_left_float). Qed.
Print Assumptions C70_symm_left.

Example C70_symm_left_case :
  let m : mem F64 := mem_of [fl 1 (-1); fl 3 0; fl 5 (-60); fl 1 0; fl 1 0; fl 1 (-54); fl 7 2; fl 3 (-3); fl 1 0; fl 1 (-54); fl 3 0; fl 5 (-1); fl 0 0; fl 0 0; fl 7 0; fl 1 30; fl 1 1; fl 9 0] in
  let A : mat F64 := row_major 0 2 2 in let t := Lower in let B : mat F64 := row_major 4 2 2 in
  let C : mat F64 := row_major 14 2 2 in let a := fm [[fl 1 (-1); fl 3 0]; [fl 5 (-60); fl 1 0]] in
  let b := fm [[fl 1 0; fl 1 (-54)]; [fl 7 2; fl 3 (-3)]] in
  succeeds (symmetric_matrix_product_left A t B C) m (fun _ m' =>
    (exists r, mat_holds m' C r /\ forall i j, i < ext0 C -> j < ext1 C ->
       accurate (ext1 A) (ext1 A) (@zero F64) (@sym_of F64 t a i) (fun k => b k j) (r i j)) /\
    changes_only m m' (mcells C)).
Proof.
  intros m A t B C a b. apply (C70_symm_left 53 1024 prec53 emax1024 m A t B C a b);
    unfold m, A, t, B, C, a, b; concrete.
Qed.

(** C = B A, A symmetric *)
Theorem C70_symm_right : forall prec emax (Hp : Prec_gt_0 prec) (He : Prec_lt_emax prec emax) (m : mem (ieee_ops prec emax Hp He)) B A t C a b,
  ext0 A = ext1 A -> ext0 C = ext0 B -> ext1 B = ext0 A -> ext1 C = ext1 A ->
  mat_holds_on m A (in_tri t) a -> mat_holds m B b -> mwritable C -> allocated m (mcells C) ->
  disjoint (mcells_on A (in_tri t)) (mcells C) -> disjoint (mcells B) (mcells C) ->
  succeeds (symmetric_matrix_product_right B A t C) m (fun _ m' =>
    (exists r, mat_holds m' C r /\ forall i j, i < ext0 C -> j < ext1 C ->
       accurate (ext1 A) (ext1 A) (B754_zero false) (b i) (fun k => @sym_of (ieee_ops prec emax Hp He) t a k j) (r i j)) /\
    changes_only m m' (mcells C)).
Proof. exact (@symm_right_float). Qed.
Print Assumptions C70_symm_right.

Example C70_symm_right_case :
  let m : mem F64 := mem_of [fl 1 (-1); fl 3 0; fl 5 (-60); fl 1 0; fl 1 0; fl 1 (-54); fl 7 2; fl 3 (-3); fl 1 0; fl 1 (-54); fl 3 0; fl 5 (-1); fl 0 0; fl 0 0; fl 7 0; fl 1 30; fl 1 1; fl 9 0] in
  let B : mat F64 := row_major 4 2 2 in let A : mat F64 := row_major 0 2 2 in let t := Lower in
  let C : mat F64 := row_major 14 2 2 in let a := fm [[fl 1 (-1); fl 3 0]; [fl 5 (-60); fl 1 0]] in
  let b := fm [[fl 1 0; fl 1 (-54)]; [fl 7 2; fl 3 (-3)]] in
  succeeds (symmetric_matrix_product_right B A t C) m (fun _ m' =>
    (exists r, mat_holds m' C r /\ forall i j, i < ext0 C -> j < ext1 C ->
       accurate (ext1 A) (ext1 A) (@zero F64) (b i) (fun k => @sym_of F64 t a k j) (r i j)) /\
    changes_only m m' (mcells C)).
Proof.
  intros m B A t C a b. apply (C70_symm_right 53 1024 prec53 emax1024 m B A t C a b);
    unfold m, B, A, t, C, a, b; concrete.
Qed.

(** y = A x, A triangular *)
Theorem C70_trmv : forall prec emax (Hp : Prec_gt_0 prec) (He : Prec_lt_emax prec emax) (m : mem (ieee_ops prec emax Hp He)) A t d x y a f,
  ext0 A = ext1 A -> vext x = ext1 A -> vext y = ext0 A ->
  mat_holds_on m A (stored t d) a -> vec_holds m x f -> vwritable y -> allocated m (vcells y) ->
  disjoint (mcells_on A (stored t d)) (vcells y) -> disjoint (vcells x) (vcells y) ->
  succeeds (triangular_matrix_vector_product A t d x y) m (fun _ m' =>
    (exists r, vec_holds m' y r /\ forall i, i < vext y -> tri_accurate (ext1 A) t d (ext1 A) i (B754_zero false) a f (r i)) /\
    changes_only m m' (vcells y)).
Proof. exact (@trmv_float). Qed.
Print Assumptions C70_trmv.

Example C70_trmv_case :
  let m : mem F64 := mem_of [fl 1 (-1); fl 3 0; fl 5 (-60); fl 1 0; fl 1 0; fl 1 (-54); fl 7 2; fl 3 (-3); fl 1 0; fl 1 (-54); fl 3 0; fl 5 (-1); fl 0 0; fl 0 0; fl 7 0; fl 1 30; fl 1 1; fl 9 0] in
  let A : mat F64 := row_major 0 2 2 in let t := Lower in let d := ImplicitUnit in let x : vec F64 := vec_at 8 2 in
  let y : vec F64 := vec_at 12 2 in let a := fm [[fl 1 (-1); fl 3 0]; [fl 5 (-60); fl 1 0]] in
  let f := fv [fl 1 0; fl 1 (-54)] in
  succeeds (triangular_matrix_vector_product A t d x y) m (fun _ m' =>
    (exists r, vec_holds m' y r /\ forall i, i < vext y -> tri_accurate (ext1 A) t d (ext1 A) i (@zero F64) a f (r i)) /\
    changes_only m m' (vcells y)).
Proof.
  intros m A t d x y a f. apply (C70_trmv 53 1024 prec53 emax1024 m A t d x y a f);
    unfold m, A, t, d, x, y, a, f; concrete.
Qed.

(** z = y + A x, A triangular *)
Theorem C70_trmv_upd : forall prec emax (Hp : Prec_gt_0 prec) (He : Prec_lt_emax prec emax) (m : mem (ieee_ops prec emax Hp He)) A t d x y z a f g,
  ext0 A = ext1 A -> vext x = ext1 A -> vext y = ext0 A -> vext z = ext0 A ->
  mat_holds_on m A (stored t d) a -> vec_holds m x f -> vec_holds m y g -> vwritable z -> allocated m (vcells z) ->
  disjoint (mcells_on A (stored t d)) (vcells z) -> disjoint (vcells x) (vcells z) -> disjoint_or_aligned_v y z ->
  succeeds (triangular_matrix_vector_product_upd A t d x y z) m (fun _ m' =>
    (exists r, vec_holds m' z r /\ forall i, i < vext z -> tri_accurate (ext1 A + 1) t d (ext1 A) i (g i) a f (r i)) /\
    changes_only m m' (vcells z)).
Proof. exact (@trmv_upd_float). Qed.
Print Assumptions C70_trmv_upd.

Example C70_trmv_upd_case :
  let m : mem F64 := mem_of [fl 1 (-1); fl 3 0; fl 5 (-60); fl 1 0; fl 1 0; fl 1 (-54); fl 7 2; fl 3 (-3); fl 1 0; fl 1 (-54); fl 3 0; fl 5 (-1); fl 0 0; fl 0 0; fl 7 0; fl 1 30; fl 1 1; fl 9 0] in
  let A : mat F64 := row_major 0 2 2 in let t := Lower in let d := ImplicitUnit in let x : vec F64 := vec_at 8 2 in
  let y : vec F64 := vec_at 10 2 in let z : vec F64 := vec_at 12 2 in
  let a := fm [[fl 1 (-1); fl 3 0]; [fl 5 (-60); fl 1 0]] in let f := fv [fl 1 0; fl 1 (-54)] in
  let g := fv [fl 3 0; fl 5 (-1)] in
  succeeds (triangular_matrix_vector_product_upd A t d x y z) m (fun _ m' =>
    (exists r, vec_holds m' z r /\ forall i, i < vext z -> tri_accurate (ext1 A + 1) t d (ext1 A) i (g i) a f (r i)) /\
    changes_only m m' (vcells z)).
Proof.
  intros m A t d x y z a f g. apply (C70_trmv_upd 53 1024 prec53 emax1024 m A t d x y z a f g);
    unfold m, A, t, d, x, y, z, a, f, g; concrete.
Qed.

(** C = A B, A triangular *)
Theorem C70_trmm_left : forall prec emax (Hp : Prec_gt_0 prec) (He : Prec_lt_emax prec emax) ty (m : mem (ieee_ops prec emax Hp He)) A t d B C a b,
  fits ty (ext0 C) ->
  ext0 A = ext1 A -> ext0 C = ext0 A -> ext1 A = ext0 B -> ext1 C = ext1 B ->
  mat_holds_on m A (stored t d) a -> mat_holds m B b -> mwritable C -> allocated m (mcells C) ->
  disjoint (mcells_on A (stored t d)) (mcells C) -> disjoint (mcells B) (mcells C) ->
  succeeds (triangular_matrix_product_left ty A t d B C) m (fun _ m' =>
    (exists r, mat_holds m' C r /\ forall i j, i < ext0 C -> j < ext1 C ->
       tri_accurate (ext1 A) t d (ext1 A) i (B754_zero false) a (fun k => b k j) (r i j)) /\
    changes_only m m' (mcells C)).
Proof. exact (@trmm_left_float). Qed.
Print Assumptions C70_trmm_left.

Example C70_trmm_left_case :
  let m : mem F64 := mem_of [fl 1 (-1); fl 3 0; fl 5 (-60); fl 1 0; fl 1 0; fl 1 (-54); fl 7 2; fl 3 (-3); fl 1 0; fl 1 (-54); fl 3 0; fl 5 (-1); fl 0 0; fl 0 0; fl 7 0; fl 1 30; fl 1 1; fl 9 0] in
  let ty := U64 in let A : mat F64 := row_major 0 2 2 in let t := Lower in let d := ImplicitUnit in
  let B : mat F64 := row_major 4 2 2 in let C : mat F64 := row_major 14 2 2 in
  let a := fm [[fl 1 (-1); fl 3 0]; [fl 5 (-60); fl 1 0]] in
  let b := fm [[fl 1 0; fl 1 (-54)]; [fl 7 2; fl 3 (-3)]] in
  succeeds (triangular_matrix_product_left ty A t d B C) m (fun _ m' =>
    (exists r, mat_holds m' C r /\ forall i j, i < ext0 C -> j < ext1 C ->
       tri_accurate (ext1 A) t d (ext1 A) i (@zero F64) a (fun k => b k j) (r i j)) /\
    changes_only m m' (mcells C)).
Proof.
  intros m ty A t d B C a b. apply (C70_trmm_left 53 1024 prec53 emax1024 ty m A t d B C a b);
    unfold m, ty, A, t, d, B, C, a, b; concrete; unfold fits; split; vm_compute; congruence.
Qed.

(** C = B A, A triangular *)
Theorem C70_trmm_right : forall prec emax (Hp : Prec_gt_0 prec) (He : Prec_lt_emax prec emax) ty (m : mem (ieee_ops prec emax Hp He)) B A t d C a b,
  fits ty (ext1 C) ->
  ext0 A = ext1 A -> ext0 C = ext0 B -> ext1 B = ext0 A -> ext1 C = ext1 A ->
  mat_holds_on m A (stored t d) a -> mat_holds m B b -> mwritable C -> allocated m (mcells C) ->
  disjoint (mcells_on A (stored t d)) (mcells C) -> disjoint (mcells B) (mcells C) ->
  succeeds (triangular_matrix_product_right ty B A t d C) m (fun _ m' =>
    (exists r, mat_holds m' C r /\ forall i j, i < ext0 C -> j < ext1 C ->
       tri_accurate_r (ext1 A) t d (ext1 A) j (B754_zero false) a (b i) (r i j)) /\
    changes_only m m' (mcells C)).
Proof. exact (@trmm_right_float). Qed.
Print Assumptions C70_trmm_right.

Example C70_trmm_right_case :
  let m : mem F64 := mem_of [fl 1 (-1); fl 3 0; fl 5 (-60); fl 1 0; fl 1 0; fl 1 (-54); fl 7 2; fl 3 (-3); fl 1 0; fl 1 (-54); fl 3 0; fl 5 (-1); fl 0 0; fl 0 0; fl 7 0; fl 1 30; fl 1 1; fl 9 0] in
  let ty := U64 in let B : mat F64 := row_major 4 2 2 in let A : mat F64 := row_major 0 2 2 in let t := Lower in
  let d := ImplicitUnit in let C : mat F64 := row_major 14 2 2 in
  let a := fm [[fl 1 (-1); fl 3 0]; [fl 5 (-60); fl 1 0]] in
  let b := fm [[fl 1 0; fl 1 (-54)]; [fl 7 2; fl 3 (-3)]] in
  succeeds (triangular_matrix_product_right ty B A t d C) m (fun _ m' =>
    (exists r, mat_holds m' C r /\ forall i j, i < ext0 C -> j < ext1 C ->
       tri_accurate_r (ext1 A) t d (ext1 A) j (@zero F64) a (b i) (r i j)) /\
    changes_only m m' (mcells C)).
Proof.
  intros m ty B A t d C a b. apply (C70_trmm_right 53 1024 prec53 emax1024 ty m B A t d C a b);
    unfold m, ty, B, A, t, d, C, a, b; concrete; unfold fits; split; vm_compute; congruence.
Qed.

(** A += x y^T *)
Theorem C70_ger : forall prec emax (Hp : Prec_gt_0 prec) (He : Prec_lt_emax prec emax) (m : mem (ieee_ops prec emax Hp He)) x y A a f g,
  vext x = ext0 A -> vext y = ext1 A ->
  mat_holds m A a -> vec_holds m x f -> vec_holds m y g -> mwritable A ->
  disjoint (vcells x) (mcells A) -> disjoint (vcells y) (mcells A) ->
  succeeds (matrix_rank_1_update x y A) m (fun _ m' =>
    (exists r, mat_holds m' A r /\ forall i j, i < ext0 A -> j < ext1 A ->
       approximates 2 (is_finite (a i j) = true /\ is_finite (f i) = true /\ is_finite (g j) = true)
         (B2R (a i j) + B2R (f i) * B2R (g j))%R (Rabs (B2R (a i j)) + Rabs (B2R (f i)) * Rabs (B2R (g j)))%R (half_tiny prec emax) (r i j)) /\
    changes_only m m' (mcells A)).
Proof. exact (@ger_float). Qed.
Print Assumptions C70_ger.

Example C70_ger_case :
  let m : mem F64 := mem_of [fl 1 (-1); fl 3 0; fl 5 (-60); fl 1 0; fl 1 0; fl 1 (-54); fl 7 2; fl 3 (-3); fl 1 0; fl 1 (-54); fl 3 0; fl 5 (-1); fl 0 0; fl 0 0; fl 7 0; fl 1 30; fl 1 1; fl 9 0] in
  let x : vec F64 := vec_at 8 2 in let y : vec F64 := vec_at 10 2 in let A : mat F64 := row_major 0 2 2 in
  let a := fm [[fl 1 (-1); fl 3 0]; [fl 5 (-60); fl 1 0]] in let f := fv [fl 1 0; fl 1 (-54)] in
  let g := fv [fl 3 0; fl 5 (-1)] in
  succeeds (matrix_rank_1_update x y A) m (fun _ m' =>
    (exists r, mat_holds m' A r /\ forall i j, i < ext0 A -> j < ext1 A ->
       approximates 2 (is_finite (a i j) = true /\ is_finite (f i) = true /\ is_finite (g j) = true)
         (B2R (a i j) + B2R (f i) * B2R (g j))%R (Rabs (B2R (a i j)) + Rabs (B2R (f i)) * Rabs (B2R (g j)))%R (half_tiny 53 1024) (r i j)) /\
    changes_only m m' (mcells A)).
Proof.
  intros m x y A a f g. apply (C70_ger 53 1024 prec53 emax1024 m x y A a f g);
    unfold m, x, y, A, a, f, g; concrete.
Qed.

(** A += x x^T on one triangle *)
Theorem C70_syr : forall prec emax (Hp : Prec_gt_0 prec) (He : Prec_lt_emax prec emax) (m : mem (ieee_ops prec emax Hp He)) x A t a f,
  ext0 A = ext1 A -> vext x = ext0 A ->
  mat_holds_on m A (in_tri t) a -> vec_holds m x f -> mwritable_on A (in_tri t) ->
  disjoint (vcells x) (mcells_on A (in_tri t)) ->
  succeeds (symmetric_matrix_rank_1_update x A t) m (fun _ m' =>
    (exists r, mat_holds_on m' A (in_tri t) r /\ forall i j, i < ext0 A -> j < ext1 A -> in_tri t i j ->
       approximates 2 (is_finite (a i j) = true /\ is_finite (f i) = true /\ is_finite (f j) = true)
         (B2R (a i j) + B2R (f i) * B2R (f j))%R (Rabs (B2R (a i j)) + Rabs (B2R (f i)) * Rabs (B2R (f j)))%R (half_tiny prec emax) (r i j)) /\
    changes_only m m' (mcells_on A (in_tri t))).
Proof. exact (@syr_float). Qed.
Print Assumptions C70_syr.

Example C70_syr_case :
  let m : mem F64 := mem_of [fl 1 (-1); fl 3 0; fl 5 (-60); fl 1 0; fl 1 0; fl 1 (-54); fl 7 2; fl 3 (-3); fl 1 0; fl 1 (-54); fl 3 0; fl 5 (-1); fl 0 0; fl 0 0; fl 7 0; fl 1 30; fl 1 1; fl 9 0] in
  let x : vec F64 := vec_at 8 2 in let A : mat F64 := row_major 0 2 2 in let t := Lower in
  let a := fm [[fl 1 (-1); fl 3 0]; [fl 5 (-60); fl 1 0]] in let f := fv [fl 1 0; fl 1 (-54)] in
  succeeds (symmetric_matrix_rank_1_update x A t) m (fun _ m' =>
    (exists r, mat_holds_on m' A (in_tri t) r /\ forall i j, i < ext0 A -> j < ext1 A -> in_tri t i j ->
       approximates 2 (is_finite (a i j) = true /\ is_finite (f i) = true /\ is_finite (f j) = true)
         (B2R (a i j) + B2R (f i) * B2R (f j))%R (Rabs (B2R (a i j)) + Rabs (B2R (f i)) * Rabs (B2R (f j)))%R (half_tiny 53 1024) (r i j)) /\
    changes_only m m' (mcells_on A (in_tri t))).
Proof.
  intros m x A t a f. apply (C70_syr 53 1024 prec53 emax1024 m x A t a f);
    unfold m, x, A, t, a, f; concrete.
Qed.

(** A += alpha x x^T on one triangle; the product alpha x_i comes first and may overflow on its own *)
Theorem C70_syr_alpha : forall prec emax (Hp : Prec_gt_0 prec) (He : Prec_lt_emax prec emax) (m : mem (ieee_ops prec emax Hp He)) (alpha : (ieee_ops prec emax Hp He)) x A t a f,
  ext0 A = ext1 A -> vext x = ext0 A ->
  mat_holds_on m A (in_tri t) a -> vec_holds m x f -> mwritable_on A (in_tri t) ->
  disjoint (vcells x) (mcells_on A (in_tri t)) ->
  succeeds (symmetric_matrix_rank_1_update_alpha alpha x A t) m (fun _ m' =>
    (exists r, mat_holds_on m' A (in_tri t) r /\ forall i j, i < ext0 A -> j < ext1 A -> in_tri t i j ->
       approximates 3 (is_finite (a i j) = true /\ is_finite alpha = true /\ is_finite (f i) = true /\ is_finite (f j) = true /\
           is_finite (@mul (ieee_ops prec emax Hp He) alpha (f i)) = true)
         (B2R (a i j) + B2R alpha * B2R (f i) * B2R (f j))%R (Rabs (B2R (a i j)) + Rabs (B2R alpha) * Rabs (B2R (f i)) * Rabs (B2R (f j)))%R
         (half_tiny prec emax * Rabs (B2R (f j)) + half_tiny prec emax)%R (r i j)) /\
    changes_only m m' (mcells_on A (in_tri t))).
Proof. exact (@syr_alpha_float). Qed.
Print Assumptions C70_syr_alpha.

Example C70_syr_alpha_case :
  let m : mem F64 := mem_of [fl 1 (-1); fl 3 0; fl 5 (-60); fl 1 0; fl 1 0; fl 1 (-54); fl 7 2; fl 3 (-3); fl 1 0; fl 1 (-54); fl 3 0; fl 5 (-1); fl 0 0; fl 0 0; fl 7 0; fl 1 30; fl 1 1; fl 9 0] in
  let alpha : F64 := fl 3 (-1) in let x : vec F64 := vec_at 8 2 in let A : mat F64 := row_major 0 2 2 in
  let t := Lower in let a := fm [[fl 1 (-1); fl 3 0]; [fl 5 (-60); fl 1 0]] in let f := fv [fl 1 0; fl 1 (-54)] in
  succeeds (symmetric_matrix_rank_1_update_alpha alpha x A t) m (fun _ m' =>
    (exists r, mat_holds_on m' A (in_tri t) r /\ forall i j, i < ext0 A -> j < ext1 A -> in_tri t i j ->
       approximates 3 (is_finite (a i j) = true /\ is_finite alpha = true /\ is_finite (f i) = true /\ is_finite (f j) = true /\
           is_finite (@mul F64 alpha (f i)) = true)
         (B2R (a i j) + B2R alpha * B2R (f i) * B2R (f j))%R (Rabs (B2R (a i j)) + Rabs (B2R alpha) * Rabs (B2R (f i)) * Rabs (B2R (f j)))%R
         (half_tiny 53 1024 * Rabs (B2R (f j)) + half_tiny 53 1024)%R (r i j)) /\
    changes_only m m' (mcells_on A (in_tri t))).
Proof.
  intros m alpha x A t a f. apply (C70_syr_alpha 53 1024 prec53 emax1024 m alpha x A t a f);
    unfold m, alpha, x, A, t, a, f; concrete.
Qed.

(** A += x y^T + y x^T on one triangle *)
Theorem C70_syr2 : forall prec emax (Hp : Prec_gt_0 prec) (He : Prec_lt_emax prec emax) (m : mem (ieee_ops prec emax Hp He)) x y A t a f g,
  ext0 A = ext1 A -> vext x = ext0 A -> vext y = ext0 A ->
  mat_holds_on m A (in_tri t) a -> vec_holds m x f -> vec_holds m y g -> mwritable_on A (in_tri t) ->
  disjoint (vcells x) (mcells_on A (in_tri t)) -> disjoint (vcells y) (mcells_on A (in_tri t)) ->
  succeeds (symmetric_matrix_rank_2_update x y A t) m (fun _ m' =>
    (exists r, mat_holds_on m' A (in_tri t) r /\ forall i j, i < ext0 A -> j < ext1 A -> in_tri t i j ->
       approximates 3 (is_finite (a i j) = true /\ is_finite (f i) = true /\ is_finite (g j) = true /\ is_finite (g i) = true /\ is_finite (f j) = true)
         (B2R (a i j) + (B2R (f i) * B2R (g j) + B2R (g i) * B2R (f j)))%R
         (Rabs (B2R (a i j)) + (Rabs (B2R (f i)) * Rabs (B2R (g j)) + Rabs (B2R (g i)) * Rabs (B2R (f j))))%R (2 * half_tiny prec emax)%R (r i j)) /\
    changes_only m m' (mcells_on A (in_tri t))).
Proof. exact (@syr2_float). Qed.
Print Assumptions C70_syr2.

Example C70_syr2_case :
  let m : mem F64 := mem_of [fl 1 (-1); fl 3 0; fl 5 (-60); fl 1 0; fl 1 0; fl 1 (-54); fl 7 2; fl 3 (-3); fl 1 0; fl 1 (-54); fl 3 0; fl 5 (-1); fl 0 0; fl 0 0; fl 7 0; fl 1 30; fl 1 1; fl 9 0] in
  let x : vec F64 := vec_at 8 2 in let y : vec F64 := vec_at 10 2 in let A : mat F64 := row_major 0 2 2 in
  let t := Lower in let a := fm [[fl 1 (-1); fl 3 0]; [fl 5 (-60); fl 1 0]] in let f := fv [fl 1 0; fl 1 (-54)] in
  let g := fv [fl 3 0; fl 5 (-1)] in
  succeeds (symmetric_matrix_rank_2_update x y A t) m (fun _ m' =>
    (exists r, mat_holds_on m' A (in_tri t) r /\ forall i j, i < ext0 A -> j < ext1 A -> in_tri t i j ->
       approximates 3 (is_finite (a i j) = true /\ is_finite (f i) = true /\ is_finite (g j) = true /\ is_finite (g i) = true /\ is_finite (f j) = true)
         (B2R (a i j) + (B2R (f i) * B2R (g j) + B2R (g i) * B2R (f j)))%R
         (Rabs (B2R (a i j)) + (Rabs (B2R (f i)) * Rabs (B2R (g j)) + Rabs (B2R (g i)) * Rabs (B2R (f j))))%R (2 * half_tiny 53 1024)%R (r i j)) /\
    changes_only m m' (mcells_on A (in_tri t))).
Proof.
  intros m x y A t a f g. apply (C70_syr2 53 1024 prec53 emax1024 m x y A t a f g);
    unfold m, x, y, A, t, a, f, g; concrete.
Qed.

(** C += A A^T on one triangle *)
Theorem C70_syrk : forall prec emax (Hp : Prec_gt_0 prec) (He : Prec_lt_emax prec emax) (m : mem (ieee_ops prec emax Hp He)) A C t a c,
  ext0 C = ext1 C -> ext0 A = ext0 C ->
  mat_holds m A a -> mat_holds_on m C (in_tri t) c -> mwritable_on C (in_tri t) ->
  disjoint (mcells A) (mcells_on C (in_tri t)) ->
  succeeds (symmetric_matrix_rank_k_update A C t) m (fun _ m' =>
    (exists r, mat_holds_on m' C (in_tri t) r /\ forall i j, i < ext0 C -> j < ext1 C -> in_tri t i j ->
       accurate (ext1 A + 1) (ext1 A) (c i j) (a i) (a j) (r i j)) /\
    changes_only m m' (mcells_on C (in_tri t))).
Proof. exact (@syrk_float). Qed.
Print Assumptions C70_syrk.

Example C70_syrk_case :
  let m : mem F64 := mem_of [fl 1 (-1); fl 3 0; fl 5 (-60); fl 1 0; fl 1 0; fl 1 (-54); fl 7 2; fl 3 (-3); fl 1 0; fl 1 (-54); fl 3 0; fl 5 (-1); fl 0 0; fl 0 0; fl 7 0; fl 1 30; fl 1 1; fl 9 0] in
  let A : mat F64 := row_major 0 2 2 in let C : mat F64 := row_major 14 2 2 in let t := Lower in
  let a := fm [[fl 1 (-1); fl 3 0]; [fl 5 (-60); fl 1 0]] in let c := fm [[fl 7 0; fl 1 30]; [fl 1 1; fl 9 0]] in
  succeeds (symmetric_matrix_rank_k_update A C t) m (fun _ m' =>
    (exists r, mat_holds_on m' C (in_tri t) r /\ forall i j, i < ext0 C -> j < ext1 C -> in_tri t i j ->
       accurate (ext1 A + 1) (ext1 A) (c i j) (a i) (a j) (r i j)) /\
    changes_only m m' (mcells_on C (in_tri t))).
Proof.
  intros m A C t a c. apply (C70_syrk 53 1024 prec53 emax1024 m A C t a c);
    unfold m, A, C, t, a, c; concrete.
Qed.

(** C += alpha A A^T on one triangle *)
Theorem C70_syrk_alpha : forall prec emax (Hp : Prec_gt_0 prec) (He : Prec_lt_emax prec emax) (m : mem (ieee_ops prec emax Hp He)) (alpha : (ieee_ops prec emax Hp He)) A C t a c,
  ext0 C = ext1 C -> ext0 A = ext0 C ->
  mat_holds m A a -> mat_holds_on m C (in_tri t) c -> mwritable_on C (in_tri t) ->
  disjoint (mcells A) (mcells_on C (in_tri t)) ->
  succeeds (symmetric_matrix_rank_k_update_alpha alpha A C t) m (fun _ m' =>
    (exists r, mat_holds_on m' C (in_tri t) r /\ forall i j, i < ext0 C -> j < ext1 C -> in_tri t i j ->
       approximates (ext1 A + 2) (is_finite (c i j) = true /\ (0 < ext1 A -> is_finite alpha = true) /\ all_finite (ext1 A) (a i) /\ all_finite (ext1 A) (a j) /\
           all_finite (ext1 A) (fun k => @mul (ieee_ops prec emax Hp He) alpha (a i k)))
         (B2R (c i j) + rsum (ext1 A) (fun k => B2R alpha * B2R (a i k) * B2R (a j k)))%R
         (Rabs (B2R (c i j)) + rsum (ext1 A) (fun k => Rabs (B2R alpha) * Rabs (B2R (a i k)) * Rabs (B2R (a j k))))%R
         (rsum (ext1 A) (fun k => half_tiny prec emax * Rabs (B2R (a j k)) + half_tiny prec emax))%R (r i j)) /\
    changes_only m m' (mcells_on C (in_tri t))).
Proof. exact (@syrk_alpha_float). Qed.
Print Assumptions C70_syrk_alpha.

Example C70_syrk_alpha_case :
  let m : mem F64 := mem_of [fl 1 (-1); fl 3 0; fl 5 (-60); fl 1 0; fl 1 0; fl 1 (-54); fl 7 2; fl 3 (-3); fl 1 0; fl 1 (-54); fl 3 0; fl 5 (-1); fl 0 0; fl 0 0; fl 7 0; fl 1 30; fl 1 1; fl 9 0] in
  let alpha : F64 := fl 3 (-1) in let A : mat F64 := row_major 0 2 2 in let C : mat F64 := row_major 14 2 2 in
  let t := Lower in let a := fm [[fl 1 (-1); fl 3 0]; [fl 5 (-60); fl 1 0]] in
  let c := fm [[fl 7 0; fl 1 30]; [fl 1 1; fl 9 0]] in
  succeeds (symmetric_matrix_rank_k_update_alpha alpha A C t) m (fun _ m' =>
    (exists r, mat_holds_on m' C (in_tri t) r /\ forall i j, i < ext0 C -> j < ext1 C -> in_tri t i j ->
       approximates (ext1 A + 2) (is_finite (c i j) = true /\ (0 < ext1 A -> is_finite alpha = true) /\ all_finite (ext1 A) (a i) /\ all_finite (ext1 A) (a j) /\
           all_finite (ext1 A) (fun k => @mul F64 alpha (a i k)))
         (B2R (c i j) + rsum (ext1 A) (fun k => B2R alpha * B2R (a i k) * B2R (a j k)))%R
         (Rabs (B2R (c i j)) + rsum (ext1 A) (fun k => Rabs (B2R alpha) * Rabs (B2R (a i k)) * Rabs (B2R (a j k))))%R
         (rsum (ext1 A) (fun k => half_tiny 53 1024 * Rabs (B2R (a j k)) + half_tiny 53 1024))%R (r i j)) /\
    changes_only m m' (mcells_on C (in_tri t))).
Proof.
  intros m alpha A C t a c. apply (C70_syrk_alpha 53 1024 prec53 emax1024 m alpha A C t a c);
    unfold m, alpha, A, C, t, a, c; concrete.
Qed.

(** C += A B^T + B A^T on one triangle *)
Theorem C70_syr2k : forall prec emax (Hp : Prec_gt_0 prec) (He : Prec_lt_emax prec emax) (m : mem (ieee_ops prec emax Hp He)) A B C t a b c,
  ext0 C = ext1 C -> ext0 A = ext0 C -> ext0 B = ext0 C -> ext1 B = ext1 A ->
  mat_holds m A a -> mat_holds m B b -> mat_holds_on m C (in_tri t) c -> mwritable_on C (in_tri t) ->
  disjoint (mcells A) (mcells_on C (in_tri t)) -> disjoint (mcells B) (mcells_on C (in_tri t)) ->
  succeeds (symmetric_matrix_rank_2k_update A B C t) m (fun _ m' =>
    (exists r, mat_holds_on m' C (in_tri t) r /\ forall i j, i < ext0 C -> j < ext1 C -> in_tri t i j ->
       approximates (ext1 A + 2) (is_finite (c i j) = true /\ all_finite (ext1 A) (a i) /\ all_finite (ext1 A) (b j) /\ all_finite (ext1 A) (b i) /\ all_finite (ext1 A) (a j))
         (B2R (c i j) + rsum (ext1 A) (fun k => B2R (a i k) * B2R (b j k) + B2R (b i k) * B2R (a j k)))%R
         (Rabs (B2R (c i j)) + rsum (ext1 A) (fun k => Rabs (B2R (a i k)) * Rabs (B2R (b j k)) + Rabs (B2R (b i k)) * Rabs (B2R (a j k))))%R
         (INR (ext1 A) * (2 * half_tiny prec emax))%R (r i j)) /\
    changes_only m m' (mcells_on C (in_tri t))).
Proof. exact (@syr2k_float). Qed.
Print Assumptions C70_syr2k.

Example C70_syr2k_case :
  let m : mem F64 := mem_of [fl 1 (-1); fl 3 0; fl 5 (-60); fl 1 0; fl 1 0; fl 1 (-54); fl 7 2; fl 3 (-3); fl 1 0; fl 1 (-54); fl 3 0; fl 5 (-1); fl 0 0; fl 0 0; fl 7 0; fl 1 30; fl 1 1; fl 9 0] in
  let A : mat F64 := row_major 0 2 2 in let B : mat F64 := row_major 4 2 2 in let C : mat F64 := row_major 14 2 2 in
  let t := Lower in let a := fm [[fl 1 (-1); fl 3 0]; [fl 5 (-60); fl 1 0]] in
  let b := fm [[fl 1 0; fl 1 (-54)]; [fl 7 2; fl 3 (-3)]] in let c := fm [[fl 7 0; fl 1 30]; [fl 1 1; fl 9 0]] in
  succeeds (symmetric_matrix_rank_2k_update A B C t) m (fun _ m' =>
    (exists r, mat_holds_on m' C (in_tri t) r /\ forall i j, i < ext0 C -> j < ext1 C -> in_tri t i j ->
       approximates (ext1 A + 2) (is_finite (c i j) = true /\ all_finite (ext1 A) (a i) /\ all_finite (ext1 A) (b j) /\ all_finite (ext1 A) (b i) /\ all_finite (ext1 A) (a j))
         (B2R (c i j) + rsum (ext1 A) (fun k => B2R (a i k) * B2R (b j k) + B2R (b i k) * B2R (a j k)))%R
         (Rabs (B2R (c i j)) + rsum (ext1 A) (fun k => Rabs (B2R (a i k)) * Rabs (B2R (b j k)) + Rabs (B2R (b i k)) * Rabs (B2R (a j k))))%R
         (INR (ext1 A) * (2 * half_tiny 53 1024))%R (r i j)) /\
    changes_only m m' (mcells_on C (in_tri t))).
Proof.
  intros m A B C t a b c. apply (C70_syr2k 53 1024 prec53 emax1024 m A B C t a b c);
    unfold m, A, B, C, t, a, b, c; concrete.
Qed.

(** The condition on alpha x_i cannot be dropped: 2^1000 * 2^100 overflows, although 2^1000 * 2^100 * 2^-1000 = 2^100.
    Element (1,0) of the lower triangle of x x^T with x = (2^-1000, 2^100) comes out infinite. *)
Example C70_syr_alpha_overflow :
  let m : mem F64 := mem_of [fl 0 0; fl 0 0; fl 0 0; fl 0 0; fl 1 (-1000); fl 1 100] in
  match run (symmetric_matrix_rank_1_update_alpha (fl 1 1000) (vec_at 4 2) (row_major 0 2 2) Lower) m with
  | Ok _ m' => match m' 2 with Some v => is_finite (v : binary_float 53 1024) = false | None => False end
  | Err _ _ => False
  end.
Proof. vm_compute. reflexivity. Qed.

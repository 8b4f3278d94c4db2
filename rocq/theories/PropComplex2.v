(** C71 (continued): symmetric, scaled and triangular products and updates of complex numbers in IEEE arithmetic, for
    every binary format. *)
From Coq Require Import List Arith ZArith Reals Lia Lra Bool.
From Flocq Require Import Core.Core IEEE754.BinarySingleNaN.
From Verif Require Import Mem Scalar View Spec SpecR SpecF SpecC SpecC2 Idx Norm Ieee IeeeC Blas1 Blas2 Blas3 Wp PfComplexTri
  PfComplexOps2 Inst PropFloat PropComplex.
Import ListNotations.
Local Open Scope nat_scope.
Local Ltac solved := try match goal with |- fits _ _ => split; vm_compute; discriminate end; concrete.

(** z = y + S x *)
Theorem C71_symv_upd : forall prec emax (Hp : Prec_gt_0 prec) (He : Prec_lt_emax prec emax) recover cdiv,
  (forall x y, ~ cfin (recover x y)) -> forall (m : mem (ieee_c prec emax Hp He recover cdiv)) A t x y z a f g,
  ext0 A = ext1 A -> vext x = ext1 A -> vext y = ext0 A -> vext z = ext0 A -> mat_holds_on m A (in_tri t) a ->
  vec_holds m x f -> vec_holds m y g -> vwritable z -> allocated m (vcells z) ->
  disjoint (mcells_on A (in_tri t)) (vcells z) -> disjoint (vcells x) (vcells z) -> disjoint_or_aligned_v y z ->
  succeeds (symmetric_matrix_vector_product_upd A t x y z) m (fun _ m' =>
    (exists r, vec_holds m' z r /\ forall i, i < vext z ->
       caccurate (ext1 A + 2) (ext1 A) (g i) (fun k => csym_of t a i k) f (r i)) /\
    changes_only m m' (vcells z)).
Proof. exact (@symv_upd_complex). Qed.
Print Assumptions C71_symv_upd.

Example C71_symv_upd_case :
  let m : mem C64 := mem_of [cl (fl 1 (-1)) (fl 1 (-54)); cl (fl 3 0) (fl 7 2); cl (fl 5 (-60)) (fl 3 (-3)); cl (fl 1 0) (fl 1 0); cl (fl 1 0) (fl 1 (-54)); cl (fl 1 (-54)) (fl 3 0); cl (fl 7 2) (fl 5 (-1)); cl (fl 3 (-3)) (fl 0 0); cl (fl 1 0) (fl 0 0); cl (fl 1 (-54)) (fl 7 0); cl (fl 3 0) (fl 1 30); cl (fl 5 (-1)) (fl 1 1); cl (fl 0 0) (fl 9 0); cl (fl 0 0) (fl 1 (-1)); cl (fl 7 0) (fl 3 0); cl (fl 1 30) (fl 5 (-60)); cl (fl 1 1) (fl 1 0); cl (fl 9 0) (fl 1 0)] in
  let A : mat C64 := row_major 0 2 2 in
  let t := Lower in
  let x : vec C64 := vec_at 8 2 in
  let y : vec C64 := vec_at 10 2 in
  let z : vec C64 := vec_at 12 2 in
  let a := cm [[cl (fl 1 (-1)) (fl 1 (-54)); cl (fl 3 0) (fl 7 2)]; [cl (fl 5 (-60)) (fl 3 (-3)); cl (fl 1 0) (fl 1 0)]] in
  let f := cv [cl (fl 1 0) (fl 0 0); cl (fl 1 (-54)) (fl 7 0)] in
  let g := cv [cl (fl 3 0) (fl 1 30); cl (fl 5 (-1)) (fl 1 1)] in
  succeeds (symmetric_matrix_vector_product_upd A t x y z) m (fun _ m' =>
    (exists r, vec_holds m' z r /\ forall i, i < vext z ->
       caccurate (ext1 A + 2) (ext1 A) (g i) (fun k => csym_of t a i k) f (r i)) /\
    changes_only m m' (vcells z)).
Proof.
  intros m A t x y z a f g. apply (C71_symv_upd 53 1024 prec53 emax1024 nan2 nan2 nan2_not_finite m A t x y z a f g);
    unfold m, A, t, x, y, z, a, f, g; solved.
Qed.

(** C = S B *)
Theorem C71_symm_left : forall prec emax (Hp : Prec_gt_0 prec) (He : Prec_lt_emax prec emax) recover cdiv,
  (forall x y, ~ cfin (recover x y)) -> forall (m : mem (ieee_c prec emax Hp He recover cdiv)) A t B C0 a b,
  ext0 A = ext1 A -> ext0 C0 = ext0 A -> ext1 A = ext0 B -> ext1 C0 = ext1 B -> mat_holds_on m A (in_tri t) a ->
  mat_holds m B b -> mwritable C0 -> allocated m (mcells C0) -> disjoint (mcells_on A (in_tri t)) (mcells C0) ->
  disjoint (mcells B) (mcells C0) ->
  succeeds (symmetric_matrix_product_left A t B C0) m (fun _ m' =>
    (exists r, mat_holds m' C0 r /\ forall i j, i < ext0 C0 -> j < ext1 C0 ->
       caccurate (ext1 A + 1) (ext1 A) czero (fun k => csym_of t a i k) (fun k => b k j) (r i j)) /\
    changes_only m m' (mcells C0)).
Proof. exact (@symm_left_complex). Qed.
Print Assumptions C71_symm_left.

Example C71_symm_left_case :
  let m : mem C64 := mem_of [cl (fl 1 (-1)) (fl 1 (-54)); cl (fl 3 0) (fl 7 2); cl (fl 5 (-60)) (fl 3 (-3)); cl (fl 1 0) (fl 1 0); cl (fl 1 0) (fl 1 (-54)); cl (fl 1 (-54)) (fl 3 0); cl (fl 7 2) (fl 5 (-1)); cl (fl 3 (-3)) (fl 0 0); cl (fl 1 0) (fl 0 0); cl (fl 1 (-54)) (fl 7 0); cl (fl 3 0) (fl 1 30); cl (fl 5 (-1)) (fl 1 1); cl (fl 0 0) (fl 9 0); cl (fl 0 0) (fl 1 (-1)); cl (fl 7 0) (fl 3 0); cl (fl 1 30) (fl 5 (-60)); cl (fl 1 1) (fl 1 0); cl (fl 9 0) (fl 1 0)] in
  let A : mat C64 := row_major 0 2 2 in
  let t := Lower in
  let B : mat C64 := row_major 4 2 2 in
  let C0 : mat C64 := row_major 14 2 2 in
  let a := cm [[cl (fl 1 (-1)) (fl 1 (-54)); cl (fl 3 0) (fl 7 2)]; [cl (fl 5 (-60)) (fl 3 (-3)); cl (fl 1 0) (fl 1 0)]] in
  let b := cm [[cl (fl 1 0) (fl 1 (-54)); cl (fl 1 (-54)) (fl 3 0)]; [cl (fl 7 2) (fl 5 (-1)); cl (fl 3 (-3)) (fl 0 0)]] in
  succeeds (symmetric_matrix_product_left A t B C0) m (fun _ m' =>
    (exists r, mat_holds m' C0 r /\ forall i j, i < ext0 C0 -> j < ext1 C0 ->
       caccurate (ext1 A + 1) (ext1 A) czero (fun k => csym_of t a i k) (fun k => b k j) (r i j)) /\
    changes_only m m' (mcells C0)).
Proof.
  intros m A t B C0 a b. apply (C71_symm_left 53 1024 prec53 emax1024 nan2 nan2 nan2_not_finite m A t B C0 a b);
    unfold m, A, t, B, C0, a, b; solved.
Qed.

(** C = B S *)
Theorem C71_symm_right : forall prec emax (Hp : Prec_gt_0 prec) (He : Prec_lt_emax prec emax) recover cdiv,
  (forall x y, ~ cfin (recover x y)) -> forall (m : mem (ieee_c prec emax Hp He recover cdiv)) B A t C0 a b,
  ext0 A = ext1 A -> ext0 C0 = ext0 B -> ext1 B = ext0 A -> ext1 C0 = ext1 A -> mat_holds_on m A (in_tri t) a ->
  mat_holds m B b -> mwritable C0 -> allocated m (mcells C0) -> disjoint (mcells_on A (in_tri t)) (mcells C0) ->
  disjoint (mcells B) (mcells C0) ->
  succeeds (symmetric_matrix_product_right B A t C0) m (fun _ m' =>
    (exists r, mat_holds m' C0 r /\ forall i j, i < ext0 C0 -> j < ext1 C0 ->
       caccurate (ext1 A + 1) (ext1 A) czero (b i) (fun k => csym_of t a k j) (r i j)) /\
    changes_only m m' (mcells C0)).
Proof. exact (@symm_right_complex). Qed.
Print Assumptions C71_symm_right.

Example C71_symm_right_case :
  let m : mem C64 := mem_of [cl (fl 1 (-1)) (fl 1 (-54)); cl (fl 3 0) (fl 7 2); cl (fl 5 (-60)) (fl 3 (-3)); cl (fl 1 0) (fl 1 0); cl (fl 1 0) (fl 1 (-54)); cl (fl 1 (-54)) (fl 3 0); cl (fl 7 2) (fl 5 (-1)); cl (fl 3 (-3)) (fl 0 0); cl (fl 1 0) (fl 0 0); cl (fl 1 (-54)) (fl 7 0); cl (fl 3 0) (fl 1 30); cl (fl 5 (-1)) (fl 1 1); cl (fl 0 0) (fl 9 0); cl (fl 0 0) (fl 1 (-1)); cl (fl 7 0) (fl 3 0); cl (fl 1 30) (fl 5 (-60)); cl (fl 1 1) (fl 1 0); cl (fl 9 0) (fl 1 0)] in
  let B : mat C64 := row_major 4 2 2 in
  let A : mat C64 := row_major 0 2 2 in
  let t := Lower in
  let C0 : mat C64 := row_major 14 2 2 in
  let a := cm [[cl (fl 1 (-1)) (fl 1 (-54)); cl (fl 3 0) (fl 7 2)]; [cl (fl 5 (-60)) (fl 3 (-3)); cl (fl 1 0) (fl 1 0)]] in
  let b := cm [[cl (fl 1 0) (fl 1 (-54)); cl (fl 1 (-54)) (fl 3 0)]; [cl (fl 7 2) (fl 5 (-1)); cl (fl 3 (-3)) (fl 0 0)]] in
  succeeds (symmetric_matrix_product_right B A t C0) m (fun _ m' =>
    (exists r, mat_holds m' C0 r /\ forall i j, i < ext0 C0 -> j < ext1 C0 ->
       caccurate (ext1 A + 1) (ext1 A) czero (b i) (fun k => csym_of t a k j) (r i j)) /\
    changes_only m m' (mcells C0)).
Proof.
  intros m B A t C0 a b. apply (C71_symm_right 53 1024 prec53 emax1024 nan2 nan2 nan2_not_finite m B A t C0 a b);
    unfold m, B, A, t, C0, a, b; solved.
Qed.

(** C = B H, with the stored diagonal as it is (see C37) *)
Theorem C71_hemm_right : forall prec emax (Hp : Prec_gt_0 prec) (He : Prec_lt_emax prec emax) recover cdiv,
  (forall x y, ~ cfin (recover x y)) -> forall (m : mem (ieee_c prec emax Hp He recover cdiv)) B A t C0 a b,
  ext0 A = ext1 A -> ext0 C0 = ext0 B -> ext1 B = ext0 A -> ext1 C0 = ext1 A -> mat_holds_on m A (in_tri t) a ->
  mat_holds m B b -> mwritable C0 -> allocated m (mcells C0) -> disjoint (mcells_on A (in_tri t)) (mcells C0) ->
  disjoint (mcells B) (mcells C0) ->
  succeeds (hermitian_matrix_product_right B A t C0) m (fun _ m' =>
    (exists r, mat_holds m' C0 r /\ forall i j, i < ext0 C0 -> j < ext1 C0 ->
       caccurate (ext1 A + 1) (ext1 A) czero (b i) (fun k => if in_tri_b t k j then a k j else conj_of (a j k)) (r i j)) /\
    changes_only m m' (mcells C0)).
Proof. exact (@hemm_right_complex). Qed.
Print Assumptions C71_hemm_right.

Example C71_hemm_right_case :
  let m : mem C64 := mem_of [cl (fl 1 (-1)) (fl 1 (-54)); cl (fl 3 0) (fl 7 2); cl (fl 5 (-60)) (fl 3 (-3)); cl (fl 1 0) (fl 1 0); cl (fl 1 0) (fl 1 (-54)); cl (fl 1 (-54)) (fl 3 0); cl (fl 7 2) (fl 5 (-1)); cl (fl 3 (-3)) (fl 0 0); cl (fl 1 0) (fl 0 0); cl (fl 1 (-54)) (fl 7 0); cl (fl 3 0) (fl 1 30); cl (fl 5 (-1)) (fl 1 1); cl (fl 0 0) (fl 9 0); cl (fl 0 0) (fl 1 (-1)); cl (fl 7 0) (fl 3 0); cl (fl 1 30) (fl 5 (-60)); cl (fl 1 1) (fl 1 0); cl (fl 9 0) (fl 1 0)] in
  let B : mat C64 := row_major 4 2 2 in
  let A : mat C64 := row_major 0 2 2 in
  let t := Lower in
  let C0 : mat C64 := row_major 14 2 2 in
  let a := cm [[cl (fl 1 (-1)) (fl 1 (-54)); cl (fl 3 0) (fl 7 2)]; [cl (fl 5 (-60)) (fl 3 (-3)); cl (fl 1 0) (fl 1 0)]] in
  let b := cm [[cl (fl 1 0) (fl 1 (-54)); cl (fl 1 (-54)) (fl 3 0)]; [cl (fl 7 2) (fl 5 (-1)); cl (fl 3 (-3)) (fl 0 0)]] in
  succeeds (hermitian_matrix_product_right B A t C0) m (fun _ m' =>
    (exists r, mat_holds m' C0 r /\ forall i j, i < ext0 C0 -> j < ext1 C0 ->
       caccurate (ext1 A + 1) (ext1 A) czero (b i) (fun k => if in_tri_b t k j then a k j else conj_of (a j k)) (r i j)) /\
    changes_only m m' (mcells C0)).
Proof.
  intros m B A t C0 a b. apply (C71_hemm_right 53 1024 prec53 emax1024 nan2 nan2 nan2_not_finite m B A t C0 a b);
    unfold m, B, A, t, C0, a, b; solved.
Qed.

(** A += x x^T *)
Theorem C71_syr : forall prec emax (Hp : Prec_gt_0 prec) (He : Prec_lt_emax prec emax) recover cdiv,
  (forall x y, ~ cfin (recover x y)) -> forall (m : mem (ieee_c prec emax Hp He recover cdiv)) x A t a f,
  ext0 A = ext1 A -> vext x = ext0 A -> mat_holds_on m A (in_tri t) a -> vec_holds m x f ->
  mwritable_on A (in_tri t) -> disjoint (vcells x) (mcells_on A (in_tri t)) ->
  succeeds (symmetric_matrix_rank_1_update x A t) m (fun _ m' =>
    (exists r, mat_holds_on m' A (in_tri t) r /\ forall i j, i < ext0 A -> j < ext1 A -> in_tri t i j ->
       caccurate 3 1 (a i j) (fun _ => f i) (fun _ => f j) (r i j)) /\
    changes_only m m' (mcells_on A (in_tri t))).
Proof. exact (@syr_complex). Qed.
Print Assumptions C71_syr.

Example C71_syr_case :
  let m : mem C64 := mem_of [cl (fl 1 (-1)) (fl 1 (-54)); cl (fl 3 0) (fl 7 2); cl (fl 5 (-60)) (fl 3 (-3)); cl (fl 1 0) (fl 1 0); cl (fl 1 0) (fl 1 (-54)); cl (fl 1 (-54)) (fl 3 0); cl (fl 7 2) (fl 5 (-1)); cl (fl 3 (-3)) (fl 0 0); cl (fl 1 0) (fl 0 0); cl (fl 1 (-54)) (fl 7 0); cl (fl 3 0) (fl 1 30); cl (fl 5 (-1)) (fl 1 1); cl (fl 0 0) (fl 9 0); cl (fl 0 0) (fl 1 (-1)); cl (fl 7 0) (fl 3 0); cl (fl 1 30) (fl 5 (-60)); cl (fl 1 1) (fl 1 0); cl (fl 9 0) (fl 1 0)] in
  let x : vec C64 := vec_at 8 2 in
  let A : mat C64 := row_major 0 2 2 in
  let t := Lower in
  let a := cm [[cl (fl 1 (-1)) (fl 1 (-54)); cl (fl 3 0) (fl 7 2)]; [cl (fl 5 (-60)) (fl 3 (-3)); cl (fl 1 0) (fl 1 0)]] in
  let f := cv [cl (fl 1 0) (fl 0 0); cl (fl 1 (-54)) (fl 7 0)] in
  succeeds (symmetric_matrix_rank_1_update x A t) m (fun _ m' =>
    (exists r, mat_holds_on m' A (in_tri t) r /\ forall i j, i < ext0 A -> j < ext1 A -> in_tri t i j ->
       caccurate 3 1 (a i j) (fun _ => f i) (fun _ => f j) (r i j)) /\
    changes_only m m' (mcells_on A (in_tri t))).
Proof.
  intros m x A t a f. apply (C71_syr 53 1024 prec53 emax1024 nan2 nan2 nan2_not_finite m x A t a f);
    unfold m, x, A, t, a, f; solved.
Qed.

(** A += x y^T + y x^T *)
Theorem C71_syr2 : forall prec emax (Hp : Prec_gt_0 prec) (He : Prec_lt_emax prec emax) recover cdiv,
  (forall x y, ~ cfin (recover x y)) -> forall (m : mem (ieee_c prec emax Hp He recover cdiv)) x y A t a f g,
  ext0 A = ext1 A -> vext x = ext0 A -> vext y = ext0 A -> mat_holds_on m A (in_tri t) a -> vec_holds m x f ->
  vec_holds m y g -> mwritable_on A (in_tri t) -> disjoint (vcells x) (mcells_on A (in_tri t)) ->
  disjoint (vcells y) (mcells_on A (in_tri t)) ->
  succeeds (symmetric_matrix_rank_2_update x y A t) m (fun _ m' =>
    (exists r, mat_holds_on m' A (in_tri t) r /\ forall i j, i < ext0 A -> j < ext1 A -> in_tri t i j ->
       caccurate2 4 1 (a i j) (fun _ => f i) (fun _ => g j) (fun _ => g i) (fun _ => f j) (r i j)) /\
    changes_only m m' (mcells_on A (in_tri t))).
Proof. exact (@syr2_complex). Qed.
Print Assumptions C71_syr2.

Example C71_syr2_case :
  let m : mem C64 := mem_of [cl (fl 1 (-1)) (fl 1 (-54)); cl (fl 3 0) (fl 7 2); cl (fl 5 (-60)) (fl 3 (-3)); cl (fl 1 0) (fl 1 0); cl (fl 1 0) (fl 1 (-54)); cl (fl 1 (-54)) (fl 3 0); cl (fl 7 2) (fl 5 (-1)); cl (fl 3 (-3)) (fl 0 0); cl (fl 1 0) (fl 0 0); cl (fl 1 (-54)) (fl 7 0); cl (fl 3 0) (fl 1 30); cl (fl 5 (-1)) (fl 1 1); cl (fl 0 0) (fl 9 0); cl (fl 0 0) (fl 1 (-1)); cl (fl 7 0) (fl 3 0); cl (fl 1 30) (fl 5 (-60)); cl (fl 1 1) (fl 1 0); cl (fl 9 0) (fl 1 0)] in
  let x : vec C64 := vec_at 8 2 in
  let y : vec C64 := vec_at 10 2 in
  let A : mat C64 := row_major 0 2 2 in
  let t := Lower in
  let a := cm [[cl (fl 1 (-1)) (fl 1 (-54)); cl (fl 3 0) (fl 7 2)]; [cl (fl 5 (-60)) (fl 3 (-3)); cl (fl 1 0) (fl 1 0)]] in
  let f := cv [cl (fl 1 0) (fl 0 0); cl (fl 1 (-54)) (fl 7 0)] in
  let g := cv [cl (fl 3 0) (fl 1 30); cl (fl 5 (-1)) (fl 1 1)] in
  succeeds (symmetric_matrix_rank_2_update x y A t) m (fun _ m' =>
    (exists r, mat_holds_on m' A (in_tri t) r /\ forall i j, i < ext0 A -> j < ext1 A -> in_tri t i j ->
       caccurate2 4 1 (a i j) (fun _ => f i) (fun _ => g j) (fun _ => g i) (fun _ => f j) (r i j)) /\
    changes_only m m' (mcells_on A (in_tri t))).
Proof.
  intros m x y A t a f g. apply (C71_syr2 53 1024 prec53 emax1024 nan2 nan2 nan2_not_finite m x y A t a f g);
    unfold m, x, y, A, t, a, f, g; solved.
Qed.

(** C += A A^T *)
Theorem C71_syrk : forall prec emax (Hp : Prec_gt_0 prec) (He : Prec_lt_emax prec emax) recover cdiv,
  (forall x y, ~ cfin (recover x y)) -> forall (m : mem (ieee_c prec emax Hp He recover cdiv)) A C0 t a c,
  ext0 C0 = ext1 C0 -> ext0 A = ext0 C0 -> mat_holds m A a -> mat_holds_on m C0 (in_tri t) c ->
  mwritable_on C0 (in_tri t) -> disjoint (mcells A) (mcells_on C0 (in_tri t)) ->
  succeeds (symmetric_matrix_rank_k_update A C0 t) m (fun _ m' =>
    (exists r, mat_holds_on m' C0 (in_tri t) r /\ forall i j, i < ext0 C0 -> j < ext1 C0 -> in_tri t i j ->
       caccurate (ext1 A + 2) (ext1 A) (c i j) (a i) (a j) (r i j)) /\
    changes_only m m' (mcells_on C0 (in_tri t))).
Proof. exact (@syrk_complex). Qed.
Print Assumptions C71_syrk.

Example C71_syrk_case :
  let m : mem C64 := mem_of [cl (fl 1 (-1)) (fl 1 (-54)); cl (fl 3 0) (fl 7 2); cl (fl 5 (-60)) (fl 3 (-3)); cl (fl 1 0) (fl 1 0); cl (fl 1 0) (fl 1 (-54)); cl (fl 1 (-54)) (fl 3 0); cl (fl 7 2) (fl 5 (-1)); cl (fl 3 (-3)) (fl 0 0); cl (fl 1 0) (fl 0 0); cl (fl 1 (-54)) (fl 7 0); cl (fl 3 0) (fl 1 30); cl (fl 5 (-1)) (fl 1 1); cl (fl 0 0) (fl 9 0); cl (fl 0 0) (fl 1 (-1)); cl (fl 7 0) (fl 3 0); cl (fl 1 30) (fl 5 (-60)); cl (fl 1 1) (fl 1 0); cl (fl 9 0) (fl 1 0)] in
  let A : mat C64 := row_major 0 2 2 in
  let C0 : mat C64 := row_major 14 2 2 in
  let t := Lower in
  let a := cm [[cl (fl 1 (-1)) (fl 1 (-54)); cl (fl 3 0) (fl 7 2)]; [cl (fl 5 (-60)) (fl 3 (-3)); cl (fl 1 0) (fl 1 0)]] in
  let c := cm [[cl (fl 7 0) (fl 3 0); cl (fl 1 30) (fl 5 (-60))]; [cl (fl 1 1) (fl 1 0); cl (fl 9 0) (fl 1 0)]] in
  succeeds (symmetric_matrix_rank_k_update A C0 t) m (fun _ m' =>
    (exists r, mat_holds_on m' C0 (in_tri t) r /\ forall i j, i < ext0 C0 -> j < ext1 C0 -> in_tri t i j ->
       caccurate (ext1 A + 2) (ext1 A) (c i j) (a i) (a j) (r i j)) /\
    changes_only m m' (mcells_on C0 (in_tri t))).
Proof.
  intros m A C0 t a c. apply (C71_syrk 53 1024 prec53 emax1024 nan2 nan2 nan2_not_finite m A C0 t a c);
    unfold m, A, C0, t, a, c; solved.
Qed.

(** C += A B^T + B A^T *)
Theorem C71_syr2k : forall prec emax (Hp : Prec_gt_0 prec) (He : Prec_lt_emax prec emax) recover cdiv,
  (forall x y, ~ cfin (recover x y)) -> forall (m : mem (ieee_c prec emax Hp He recover cdiv)) A B C0 t a b c,
  ext0 C0 = ext1 C0 -> ext0 A = ext0 C0 -> ext0 B = ext0 C0 -> ext1 B = ext1 A -> mat_holds m A a ->
  mat_holds m B b -> mat_holds_on m C0 (in_tri t) c -> mwritable_on C0 (in_tri t) ->
  disjoint (mcells A) (mcells_on C0 (in_tri t)) -> disjoint (mcells B) (mcells_on C0 (in_tri t)) ->
  succeeds (symmetric_matrix_rank_2k_update A B C0 t) m (fun _ m' =>
    (exists r, mat_holds_on m' C0 (in_tri t) r /\ forall i j, i < ext0 C0 -> j < ext1 C0 -> in_tri t i j ->
       caccurate2 (ext1 A + 3) (ext1 A) (c i j) (a i) (b j) (b i) (a j) (r i j)) /\
    changes_only m m' (mcells_on C0 (in_tri t))).
Proof. exact (@syr2k_complex). Qed.
Print Assumptions C71_syr2k.

Example C71_syr2k_case :
  let m : mem C64 := mem_of [cl (fl 1 (-1)) (fl 1 (-54)); cl (fl 3 0) (fl 7 2); cl (fl 5 (-60)) (fl 3 (-3)); cl (fl 1 0) (fl 1 0); cl (fl 1 0) (fl 1 (-54)); cl (fl 1 (-54)) (fl 3 0); cl (fl 7 2) (fl 5 (-1)); cl (fl 3 (-3)) (fl 0 0); cl (fl 1 0) (fl 0 0); cl (fl 1 (-54)) (fl 7 0); cl (fl 3 0) (fl 1 30); cl (fl 5 (-1)) (fl 1 1); cl (fl 0 0) (fl 9 0); cl (fl 0 0) (fl 1 (-1)); cl (fl 7 0) (fl 3 0); cl (fl 1 30) (fl 5 (-60)); cl (fl 1 1) (fl 1 0); cl (fl 9 0) (fl 1 0)] in
  let A : mat C64 := row_major 0 2 2 in
  let B : mat C64 := row_major 4 2 2 in
  let C0 : mat C64 := row_major 14 2 2 in
  let t := Lower in
  let a := cm [[cl (fl 1 (-1)) (fl 1 (-54)); cl (fl 3 0) (fl 7 2)]; [cl (fl 5 (-60)) (fl 3 (-3)); cl (fl 1 0) (fl 1 0)]] in
  let b := cm [[cl (fl 1 0) (fl 1 (-54)); cl (fl 1 (-54)) (fl 3 0)]; [cl (fl 7 2) (fl 5 (-1)); cl (fl 3 (-3)) (fl 0 0)]] in
  let c := cm [[cl (fl 7 0) (fl 3 0); cl (fl 1 30) (fl 5 (-60))]; [cl (fl 1 1) (fl 1 0); cl (fl 9 0) (fl 1 0)]] in
  succeeds (symmetric_matrix_rank_2k_update A B C0 t) m (fun _ m' =>
    (exists r, mat_holds_on m' C0 (in_tri t) r /\ forall i j, i < ext0 C0 -> j < ext1 C0 -> in_tri t i j ->
       caccurate2 (ext1 A + 3) (ext1 A) (c i j) (a i) (b j) (b i) (a j) (r i j)) /\
    changes_only m m' (mcells_on C0 (in_tri t))).
Proof.
  intros m A B C0 t a b c. apply (C71_syr2k 53 1024 prec53 emax1024 nan2 nan2 nan2_not_finite m A B C0 t a b c);
    unfold m, A, B, C0, t, a, b, c; solved.
Qed.

(** A += (alpha x) x^T *)
Theorem C71_syr_alpha : forall prec emax (Hp : Prec_gt_0 prec) (He : Prec_lt_emax prec emax) recover cdiv,
  (forall x y, ~ cfin (recover x y)) -> forall (m : mem (ieee_c prec emax Hp He recover cdiv)) (alpha : (ieee_c prec emax Hp He recover cdiv)) x A t a f,
  ext0 A = ext1 A -> vext x = ext0 A -> mat_holds_on m A (in_tri t) a -> vec_holds m x f ->
  mwritable_on A (in_tri t) -> disjoint (vcells x) (mcells_on A (in_tri t)) ->
  succeeds (symmetric_matrix_rank_1_update_alpha alpha x A t) m (fun _ m' =>
    (exists r w, mat_holds_on m' A (in_tri t) r /\ (forall i, cproduct alpha (f i) (w i)) /\
       forall i j, i < ext0 A -> j < ext1 A -> in_tri t i j ->
       caccurate 3 1 (a i j) (fun _ => w i) (fun _ => f j) (r i j)) /\
    changes_only m m' (mcells_on A (in_tri t))).
Proof. exact (@syr_alpha_complex). Qed.
Print Assumptions C71_syr_alpha.

Example C71_syr_alpha_case :
  let m : mem C64 := mem_of [cl (fl 1 (-1)) (fl 1 (-54)); cl (fl 3 0) (fl 7 2); cl (fl 5 (-60)) (fl 3 (-3)); cl (fl 1 0) (fl 1 0); cl (fl 1 0) (fl 1 (-54)); cl (fl 1 (-54)) (fl 3 0); cl (fl 7 2) (fl 5 (-1)); cl (fl 3 (-3)) (fl 0 0); cl (fl 1 0) (fl 0 0); cl (fl 1 (-54)) (fl 7 0); cl (fl 3 0) (fl 1 30); cl (fl 5 (-1)) (fl 1 1); cl (fl 0 0) (fl 9 0); cl (fl 0 0) (fl 1 (-1)); cl (fl 7 0) (fl 3 0); cl (fl 1 30) (fl 5 (-60)); cl (fl 1 1) (fl 1 0); cl (fl 9 0) (fl 1 0)] in
  let alpha : C64 := cl (fl 1 0) (fl 1 0) in
  let x : vec C64 := vec_at 8 2 in
  let A : mat C64 := row_major 0 2 2 in
  let t := Lower in
  let a := cm [[cl (fl 1 (-1)) (fl 1 (-54)); cl (fl 3 0) (fl 7 2)]; [cl (fl 5 (-60)) (fl 3 (-3)); cl (fl 1 0) (fl 1 0)]] in
  let f := cv [cl (fl 1 0) (fl 0 0); cl (fl 1 (-54)) (fl 7 0)] in
  succeeds (symmetric_matrix_rank_1_update_alpha alpha x A t) m (fun _ m' =>
    (exists r w, mat_holds_on m' A (in_tri t) r /\ (forall i, cproduct alpha (f i) (w i)) /\
       forall i j, i < ext0 A -> j < ext1 A -> in_tri t i j ->
       caccurate 3 1 (a i j) (fun _ => w i) (fun _ => f j) (r i j)) /\
    changes_only m m' (mcells_on A (in_tri t))).
Proof.
  intros m alpha x A t a f. apply (C71_syr_alpha 53 1024 prec53 emax1024 nan2 nan2 nan2_not_finite m alpha x A t a f);
    unfold m, alpha, x, A, t, a, f; solved.
Qed.

(** A += (alpha x) x^H *)
Theorem C71_her_alpha : forall prec emax (Hp : Prec_gt_0 prec) (He : Prec_lt_emax prec emax) recover cdiv,
  (forall x y, ~ cfin (recover x y)) -> forall (m : mem (ieee_c prec emax Hp He recover cdiv)) (alpha : (ieee_c prec emax Hp He recover cdiv)) x A t a f,
  ext0 A = ext1 A -> vext x = ext0 A -> mat_holds_on m A (in_tri t) a -> vec_holds m x f ->
  mwritable_on A (in_tri t) -> disjoint (vcells x) (mcells_on A (in_tri t)) ->
  succeeds (hermitian_matrix_rank_1_update_alpha alpha x A t) m (fun _ m' =>
    (exists r w, mat_holds_on m' A (in_tri t) r /\ (forall i, cproduct alpha (f i) (w i)) /\
       forall i j, i < ext0 A -> j < ext1 A -> in_tri t i j ->
       caccurate 3 1 (cherm_of t a i j) (fun _ => w i) (fun _ => conj_of (f j)) (r i j)) /\
    changes_only m m' (mcells_on A (in_tri t))).
Proof. exact (@her_alpha_complex). Qed.
Print Assumptions C71_her_alpha.

Example C71_her_alpha_case :
  let m : mem C64 := mem_of [cl (fl 1 (-1)) (fl 1 (-54)); cl (fl 3 0) (fl 7 2); cl (fl 5 (-60)) (fl 3 (-3)); cl (fl 1 0) (fl 1 0); cl (fl 1 0) (fl 1 (-54)); cl (fl 1 (-54)) (fl 3 0); cl (fl 7 2) (fl 5 (-1)); cl (fl 3 (-3)) (fl 0 0); cl (fl 1 0) (fl 0 0); cl (fl 1 (-54)) (fl 7 0); cl (fl 3 0) (fl 1 30); cl (fl 5 (-1)) (fl 1 1); cl (fl 0 0) (fl 9 0); cl (fl 0 0) (fl 1 (-1)); cl (fl 7 0) (fl 3 0); cl (fl 1 30) (fl 5 (-60)); cl (fl 1 1) (fl 1 0); cl (fl 9 0) (fl 1 0)] in
  let alpha : C64 := cl (fl 1 0) (fl 1 0) in
  let x : vec C64 := vec_at 8 2 in
  let A : mat C64 := row_major 0 2 2 in
  let t := Lower in
  let a := cm [[cl (fl 1 (-1)) (fl 1 (-54)); cl (fl 3 0) (fl 7 2)]; [cl (fl 5 (-60)) (fl 3 (-3)); cl (fl 1 0) (fl 1 0)]] in
  let f := cv [cl (fl 1 0) (fl 0 0); cl (fl 1 (-54)) (fl 7 0)] in
  succeeds (hermitian_matrix_rank_1_update_alpha alpha x A t) m (fun _ m' =>
    (exists r w, mat_holds_on m' A (in_tri t) r /\ (forall i, cproduct alpha (f i) (w i)) /\
       forall i j, i < ext0 A -> j < ext1 A -> in_tri t i j ->
       caccurate 3 1 (cherm_of t a i j) (fun _ => w i) (fun _ => conj_of (f j)) (r i j)) /\
    changes_only m m' (mcells_on A (in_tri t))).
Proof.
  intros m alpha x A t a f. apply (C71_her_alpha 53 1024 prec53 emax1024 nan2 nan2 nan2_not_finite m alpha x A t a f);
    unfold m, alpha, x, A, t, a, f; solved.
Qed.

(** C += (alpha A) A^T *)
Theorem C71_syrk_alpha : forall prec emax (Hp : Prec_gt_0 prec) (He : Prec_lt_emax prec emax) recover cdiv,
  (forall x y, ~ cfin (recover x y)) -> forall (m : mem (ieee_c prec emax Hp He recover cdiv)) (alpha : (ieee_c prec emax Hp He recover cdiv)) A C0 t a c,
  ext0 C0 = ext1 C0 -> ext0 A = ext0 C0 -> mat_holds m A a -> mat_holds_on m C0 (in_tri t) c ->
  mwritable_on C0 (in_tri t) -> disjoint (mcells A) (mcells_on C0 (in_tri t)) ->
  succeeds (symmetric_matrix_rank_k_update_alpha alpha A C0 t) m (fun _ m' =>
    (exists r w, mat_holds_on m' C0 (in_tri t) r /\ (forall i k, cproduct alpha (a i k) (w i k)) /\
       forall i j, i < ext0 C0 -> j < ext1 C0 -> in_tri t i j ->
       caccurate (ext1 A + 2) (ext1 A) (c i j) (w i) (a j) (r i j)) /\
    changes_only m m' (mcells_on C0 (in_tri t))).
Proof. exact (@syrk_alpha_complex). Qed.
Print Assumptions C71_syrk_alpha.

Example C71_syrk_alpha_case :
  let m : mem C64 := mem_of [cl (fl 1 (-1)) (fl 1 (-54)); cl (fl 3 0) (fl 7 2); cl (fl 5 (-60)) (fl 3 (-3)); cl (fl 1 0) (fl 1 0); cl (fl 1 0) (fl 1 (-54)); cl (fl 1 (-54)) (fl 3 0); cl (fl 7 2) (fl 5 (-1)); cl (fl 3 (-3)) (fl 0 0); cl (fl 1 0) (fl 0 0); cl (fl 1 (-54)) (fl 7 0); cl (fl 3 0) (fl 1 30); cl (fl 5 (-1)) (fl 1 1); cl (fl 0 0) (fl 9 0); cl (fl 0 0) (fl 1 (-1)); cl (fl 7 0) (fl 3 0); cl (fl 1 30) (fl 5 (-60)); cl (fl 1 1) (fl 1 0); cl (fl 9 0) (fl 1 0)] in
  let alpha : C64 := cl (fl 1 0) (fl 1 0) in
  let A : mat C64 := row_major 0 2 2 in
  let C0 : mat C64 := row_major 14 2 2 in
  let t := Lower in
  let a := cm [[cl (fl 1 (-1)) (fl 1 (-54)); cl (fl 3 0) (fl 7 2)]; [cl (fl 5 (-60)) (fl 3 (-3)); cl (fl 1 0) (fl 1 0)]] in
  let c := cm [[cl (fl 7 0) (fl 3 0); cl (fl 1 30) (fl 5 (-60))]; [cl (fl 1 1) (fl 1 0); cl (fl 9 0) (fl 1 0)]] in
  succeeds (symmetric_matrix_rank_k_update_alpha alpha A C0 t) m (fun _ m' =>
    (exists r w, mat_holds_on m' C0 (in_tri t) r /\ (forall i k, cproduct alpha (a i k) (w i k)) /\
       forall i j, i < ext0 C0 -> j < ext1 C0 -> in_tri t i j ->
       caccurate (ext1 A + 2) (ext1 A) (c i j) (w i) (a j) (r i j)) /\
    changes_only m m' (mcells_on C0 (in_tri t))).
Proof.
  intros m alpha A C0 t a c. apply (C71_syrk_alpha 53 1024 prec53 emax1024 nan2 nan2 nan2_not_finite m alpha A C0 t a c);
    unfold m, alpha, A, C0, t, a, c; solved.
Qed.

(** C += (alpha A) A^H *)
Theorem C71_herk_alpha : forall prec emax (Hp : Prec_gt_0 prec) (He : Prec_lt_emax prec emax) recover cdiv,
  (forall x y, ~ cfin (recover x y)) -> forall (m : mem (ieee_c prec emax Hp He recover cdiv)) (alpha : (ieee_c prec emax Hp He recover cdiv)) A C0 t a c,
  ext0 C0 = ext1 C0 -> ext0 A = ext0 C0 -> mat_holds m A a -> mat_holds_on m C0 (in_tri t) c ->
  mwritable_on C0 (in_tri t) -> disjoint (mcells A) (mcells_on C0 (in_tri t)) ->
  succeeds (hermitian_matrix_rank_k_update_alpha alpha A C0 t) m (fun _ m' =>
    (exists r w, mat_holds_on m' C0 (in_tri t) r /\ (forall i k, cproduct alpha (a i k) (w i k)) /\
       forall i j, i < ext0 C0 -> j < ext1 C0 -> in_tri t i j ->
       caccurate (ext1 A + 2) (ext1 A) (cherm_of t c i j) (w i) (fun k => conj_of (a j k)) (r i j)) /\
    changes_only m m' (mcells_on C0 (in_tri t))).
Proof. exact (@herk_alpha_complex). Qed.
Print Assumptions C71_herk_alpha.

Example C71_herk_alpha_case :
  let m : mem C64 := mem_of [cl (fl 1 (-1)) (fl 1 (-54)); cl (fl 3 0) (fl 7 2); cl (fl 5 (-60)) (fl 3 (-3)); cl (fl 1 0) (fl 1 0); cl (fl 1 0) (fl 1 (-54)); cl (fl 1 (-54)) (fl 3 0); cl (fl 7 2) (fl 5 (-1)); cl (fl 3 (-3)) (fl 0 0); cl (fl 1 0) (fl 0 0); cl (fl 1 (-54)) (fl 7 0); cl (fl 3 0) (fl 1 30); cl (fl 5 (-1)) (fl 1 1); cl (fl 0 0) (fl 9 0); cl (fl 0 0) (fl 1 (-1)); cl (fl 7 0) (fl 3 0); cl (fl 1 30) (fl 5 (-60)); cl (fl 1 1) (fl 1 0); cl (fl 9 0) (fl 1 0)] in
  let alpha : C64 := cl (fl 1 0) (fl 1 0) in
  let A : mat C64 := row_major 0 2 2 in
  let C0 : mat C64 := row_major 14 2 2 in
  let t := Lower in
  let a := cm [[cl (fl 1 (-1)) (fl 1 (-54)); cl (fl 3 0) (fl 7 2)]; [cl (fl 5 (-60)) (fl 3 (-3)); cl (fl 1 0) (fl 1 0)]] in
  let c := cm [[cl (fl 7 0) (fl 3 0); cl (fl 1 30) (fl 5 (-60))]; [cl (fl 1 1) (fl 1 0); cl (fl 9 0) (fl 1 0)]] in
  succeeds (hermitian_matrix_rank_k_update_alpha alpha A C0 t) m (fun _ m' =>
    (exists r w, mat_holds_on m' C0 (in_tri t) r /\ (forall i k, cproduct alpha (a i k) (w i k)) /\
       forall i j, i < ext0 C0 -> j < ext1 C0 -> in_tri t i j ->
       caccurate (ext1 A + 2) (ext1 A) (cherm_of t c i j) (w i) (fun k => conj_of (a j k)) (r i j)) /\
    changes_only m m' (mcells_on C0 (in_tri t))).
Proof.
  intros m alpha A C0 t a c. apply (C71_herk_alpha 53 1024 prec53 emax1024 nan2 nan2 nan2_not_finite m alpha A C0 t a c);
    unfold m, alpha, A, C0, t, a, c; solved.
Qed.

(** y = T x *)
Theorem C71_trmv : forall prec emax (Hp : Prec_gt_0 prec) (He : Prec_lt_emax prec emax) recover cdiv,
  (forall x y, ~ cfin (recover x y)) -> forall (m : mem (ieee_c prec emax Hp He recover cdiv)) A t d x y a f,
  ext0 A = ext1 A -> vext x = ext1 A -> vext y = ext0 A ->
  mat_holds_on m A (stored t d) a -> vec_holds m x f -> vwritable y -> allocated m (vcells y) ->
  disjoint (mcells_on A (stored t d)) (vcells y) -> disjoint (vcells x) (vcells y) ->
  succeeds (triangular_matrix_vector_product A t d x y) m (fun _ m' =>
    (exists r, vec_holds m' y r /\ forall i, i < vext y -> ctri_accurate (ext1 A + 1) t d (ext1 A) i czero a f (r i)) /\
    changes_only m m' (vcells y)).
Proof. exact (@trmv_complex). Qed.
Print Assumptions C71_trmv.

Example C71_trmv_case :
  let m : mem C64 := mem_of [cl (fl 1 (-1)) (fl 1 (-54)); cl (fl 3 0) (fl 7 2); cl (fl 5 (-60)) (fl 3 (-3)); cl (fl 1 0) (fl 1 0); cl (fl 1 0) (fl 1 (-54)); cl (fl 1 (-54)) (fl 3 0); cl (fl 7 2) (fl 5 (-1)); cl (fl 3 (-3)) (fl 0 0); cl (fl 1 0) (fl 0 0); cl (fl 1 (-54)) (fl 7 0); cl (fl 3 0) (fl 1 30); cl (fl 5 (-1)) (fl 1 1); cl (fl 0 0) (fl 9 0); cl (fl 0 0) (fl 1 (-1)); cl (fl 7 0) (fl 3 0); cl (fl 1 30) (fl 5 (-60)); cl (fl 1 1) (fl 1 0); cl (fl 9 0) (fl 1 0)] in
  let A : mat C64 := row_major 0 2 2 in
  let t := Lower in
  let d := ImplicitUnit in
  let x : vec C64 := vec_at 8 2 in
  let y : vec C64 := vec_at 10 2 in
  let a := cm [[cl (fl 1 (-1)) (fl 1 (-54)); cl (fl 3 0) (fl 7 2)]; [cl (fl 5 (-60)) (fl 3 (-3)); cl (fl 1 0) (fl 1 0)]] in
  let f := cv [cl (fl 1 0) (fl 0 0); cl (fl 1 (-54)) (fl 7 0)] in
  succeeds (triangular_matrix_vector_product A t d x y) m (fun _ m' =>
    (exists r, vec_holds m' y r /\ forall i, i < vext y -> ctri_accurate (ext1 A + 1) t d (ext1 A) i czero a f (r i)) /\
    changes_only m m' (vcells y)).
Proof.
  intros m A t d x y a f. apply (C71_trmv 53 1024 prec53 emax1024 nan2 nan2 nan2_not_finite m A t d x y a f);
    unfold m, A, t, d, x, y, a, f; solved.
Qed.

(** z = y + T x *)
Theorem C71_trmv_upd : forall prec emax (Hp : Prec_gt_0 prec) (He : Prec_lt_emax prec emax) recover cdiv,
  (forall x y, ~ cfin (recover x y)) -> forall (m : mem (ieee_c prec emax Hp He recover cdiv)) A t d x y z a f g,
  ext0 A = ext1 A -> vext x = ext1 A -> vext y = ext0 A -> vext z = ext0 A ->
  mat_holds_on m A (stored t d) a -> vec_holds m x f -> vec_holds m y g -> vwritable z -> allocated m (vcells z) ->
  disjoint (mcells_on A (stored t d)) (vcells z) -> disjoint (vcells x) (vcells z) -> disjoint_or_aligned_v y z ->
  succeeds (triangular_matrix_vector_product_upd A t d x y z) m (fun _ m' =>
    (exists r, vec_holds m' z r /\ forall i, i < vext z -> ctri_accurate (ext1 A + 2) t d (ext1 A) i (g i) a f (r i)) /\
    changes_only m m' (vcells z)).
Proof. exact (@trmv_upd_complex). Qed.
Print Assumptions C71_trmv_upd.

Example C71_trmv_upd_case :
  let m : mem C64 := mem_of [cl (fl 1 (-1)) (fl 1 (-54)); cl (fl 3 0) (fl 7 2); cl (fl 5 (-60)) (fl 3 (-3)); cl (fl 1 0) (fl 1 0); cl (fl 1 0) (fl 1 (-54)); cl (fl 1 (-54)) (fl 3 0); cl (fl 7 2) (fl 5 (-1)); cl (fl 3 (-3)) (fl 0 0); cl (fl 1 0) (fl 0 0); cl (fl 1 (-54)) (fl 7 0); cl (fl 3 0) (fl 1 30); cl (fl 5 (-1)) (fl 1 1); cl (fl 0 0) (fl 9 0); cl (fl 0 0) (fl 1 (-1)); cl (fl 7 0) (fl 3 0); cl (fl 1 30) (fl 5 (-60)); cl (fl 1 1) (fl 1 0); cl (fl 9 0) (fl 1 0)] in
  let A : mat C64 := row_major 0 2 2 in
  let t := Lower in
  let d := ImplicitUnit in
  let x : vec C64 := vec_at 8 2 in
  let y : vec C64 := vec_at 10 2 in
  let z : vec C64 := vec_at 12 2 in
  let a := cm [[cl (fl 1 (-1)) (fl 1 (-54)); cl (fl 3 0) (fl 7 2)]; [cl (fl 5 (-60)) (fl 3 (-3)); cl (fl 1 0) (fl 1 0)]] in
  let f := cv [cl (fl 1 0) (fl 0 0); cl (fl 1 (-54)) (fl 7 0)] in
  let g := cv [cl (fl 3 0) (fl 1 30); cl (fl 5 (-1)) (fl 1 1)] in
  succeeds (triangular_matrix_vector_product_upd A t d x y z) m (fun _ m' =>
    (exists r, vec_holds m' z r /\ forall i, i < vext z -> ctri_accurate (ext1 A + 2) t d (ext1 A) i (g i) a f (r i)) /\
    changes_only m m' (vcells z)).
Proof.
  intros m A t d x y z a f g. apply (C71_trmv_upd 53 1024 prec53 emax1024 nan2 nan2 nan2_not_finite m A t d x y z a f g);
    unfold m, A, t, d, x, y, z, a, f, g; solved.
Qed.

(** C = T B *)
Theorem C71_trmm_left : forall prec emax (Hp : Prec_gt_0 prec) (He : Prec_lt_emax prec emax) recover cdiv,
  (forall x y, ~ cfin (recover x y)) -> forall ty (m : mem (ieee_c prec emax Hp He recover cdiv)) A t d B C0 a b,
  fits ty (ext0 C0) ->
  ext0 A = ext1 A -> ext0 C0 = ext0 A -> ext1 A = ext0 B -> ext1 C0 = ext1 B ->
  mat_holds_on m A (stored t d) a -> mat_holds m B b -> mwritable C0 -> allocated m (mcells C0) ->
  disjoint (mcells_on A (stored t d)) (mcells C0) -> disjoint (mcells B) (mcells C0) ->
  succeeds (triangular_matrix_product_left ty A t d B C0) m (fun _ m' =>
    (exists r, mat_holds m' C0 r /\ forall i j, i < ext0 C0 -> j < ext1 C0 ->
       ctri_accurate (ext1 A + 1) t d (ext1 A) i czero a (fun k => b k j) (r i j)) /\
    changes_only m m' (mcells C0)).
Proof. exact (@trmm_left_complex). Qed.
Print Assumptions C71_trmm_left.

Example C71_trmm_left_case :
  let m : mem C64 := mem_of [cl (fl 1 (-1)) (fl 1 (-54)); cl (fl 3 0) (fl 7 2); cl (fl 5 (-60)) (fl 3 (-3)); cl (fl 1 0) (fl 1 0); cl (fl 1 0) (fl 1 (-54)); cl (fl 1 (-54)) (fl 3 0); cl (fl 7 2) (fl 5 (-1)); cl (fl 3 (-3)) (fl 0 0); cl (fl 1 0) (fl 0 0); cl (fl 1 (-54)) (fl 7 0); cl (fl 3 0) (fl 1 30); cl (fl 5 (-1)) (fl 1 1); cl (fl 0 0) (fl 9 0); cl (fl 0 0) (fl 1 (-1)); cl (fl 7 0) (fl 3 0); cl (fl 1 30) (fl 5 (-60)); cl (fl 1 1) (fl 1 0); cl (fl 9 0) (fl 1 0)] in
  let ty := U64 in
  let A : mat C64 := row_major 0 2 2 in
  let t := Lower in
  let d := ImplicitUnit in
  let B : mat C64 := row_major 4 2 2 in
  let C0 : mat C64 := row_major 14 2 2 in
  let a := cm [[cl (fl 1 (-1)) (fl 1 (-54)); cl (fl 3 0) (fl 7 2)]; [cl (fl 5 (-60)) (fl 3 (-3)); cl (fl 1 0) (fl 1 0)]] in
  let b := cm [[cl (fl 1 0) (fl 1 (-54)); cl (fl 1 (-54)) (fl 3 0)]; [cl (fl 7 2) (fl 5 (-1)); cl (fl 3 (-3)) (fl 0 0)]] in
  succeeds (triangular_matrix_product_left ty A t d B C0) m (fun _ m' =>
    (exists r, mat_holds m' C0 r /\ forall i j, i < ext0 C0 -> j < ext1 C0 ->
       ctri_accurate (ext1 A + 1) t d (ext1 A) i czero a (fun k => b k j) (r i j)) /\
    changes_only m m' (mcells C0)).
Proof.
  intros m ty A t d B C0 a b. apply (C71_trmm_left 53 1024 prec53 emax1024 nan2 nan2 nan2_not_finite ty m A t d B C0 a b);
    unfold m, ty, A, t, d, B, C0, a, b; solved.
Qed.

(** C = B T *)
Theorem C71_trmm_right : forall prec emax (Hp : Prec_gt_0 prec) (He : Prec_lt_emax prec emax) recover cdiv,
  (forall x y, ~ cfin (recover x y)) -> forall ty (m : mem (ieee_c prec emax Hp He recover cdiv)) B A t d C0 a b,
  fits ty (ext1 C0) ->
  ext0 A = ext1 A -> ext0 C0 = ext0 B -> ext1 B = ext0 A -> ext1 C0 = ext1 A ->
  mat_holds_on m A (stored t d) a -> mat_holds m B b -> mwritable C0 -> allocated m (mcells C0) ->
  disjoint (mcells_on A (stored t d)) (mcells C0) -> disjoint (mcells B) (mcells C0) ->
  succeeds (triangular_matrix_product_right ty B A t d C0) m (fun _ m' =>
    (exists r, mat_holds m' C0 r /\ forall i j, i < ext0 C0 -> j < ext1 C0 ->
       ctri_accurate_r (ext1 A + 1) t d (ext1 A) j czero a (b i) (r i j)) /\
    changes_only m m' (mcells C0)).
Proof. exact (@trmm_right_complex). Qed.
Print Assumptions C71_trmm_right.

Example C71_trmm_right_case :
  let m : mem C64 := mem_of [cl (fl 1 (-1)) (fl 1 (-54)); cl (fl 3 0) (fl 7 2); cl (fl 5 (-60)) (fl 3 (-3)); cl (fl 1 0) (fl 1 0); cl (fl 1 0) (fl 1 (-54)); cl (fl 1 (-54)) (fl 3 0); cl (fl 7 2) (fl 5 (-1)); cl (fl 3 (-3)) (fl 0 0); cl (fl 1 0) (fl 0 0); cl (fl 1 (-54)) (fl 7 0); cl (fl 3 0) (fl 1 30); cl (fl 5 (-1)) (fl 1 1); cl (fl 0 0) (fl 9 0); cl (fl 0 0) (fl 1 (-1)); cl (fl 7 0) (fl 3 0); cl (fl 1 30) (fl 5 (-60)); cl (fl 1 1) (fl 1 0); cl (fl 9 0) (fl 1 0)] in
  let ty := U64 in
  let B : mat C64 := row_major 4 2 2 in
  let A : mat C64 := row_major 0 2 2 in
  let t := Lower in
  let d := ImplicitUnit in
  let C0 : mat C64 := row_major 14 2 2 in
  let a := cm [[cl (fl 1 (-1)) (fl 1 (-54)); cl (fl 3 0) (fl 7 2)]; [cl (fl 5 (-60)) (fl 3 (-3)); cl (fl 1 0) (fl 1 0)]] in
  let b := cm [[cl (fl 1 0) (fl 1 (-54)); cl (fl 1 (-54)) (fl 3 0)]; [cl (fl 7 2) (fl 5 (-1)); cl (fl 3 (-3)) (fl 0 0)]] in
  succeeds (triangular_matrix_product_right ty B A t d C0) m (fun _ m' =>
    (exists r, mat_holds m' C0 r /\ forall i j, i < ext0 C0 -> j < ext1 C0 ->
       ctri_accurate_r (ext1 A + 1) t d (ext1 A) j czero a (b i) (r i j)) /\
    changes_only m m' (mcells C0)).
Proof.
  intros m ty B A t d C0 a b. apply (C71_trmm_right 53 1024 prec53 emax1024 nan2 nan2 nan2_not_finite ty m B A t d C0 a b);
    unfold m, ty, B, A, t, d, C0, a, b; solved.
Qed.


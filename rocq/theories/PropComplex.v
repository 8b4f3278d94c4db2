(** C71: error bounds of products and updates of complex numbers in IEEE arithmetic, for every binary format. *)
From Coq Require Import List Arith ZArith Reals Lia Lra Bool.
From Flocq Require Import Core.Core IEEE754.BinarySingleNaN.
From Verif Require Import Mem Scalar View Spec SpecR SpecF SpecC Idx Norm Ieee IeeeC Blas1 Blas2 Blas3 Wp PfComplexOps Inst PropFloat.
Import ListNotations.
Local Open Scope nat_scope.

(** Complex binary64 numbers for the concrete cases; a product whose parts are both NaN stays so. *)
Definition nan2 (_ _ : cfl 53 1024) : cfl 53 1024 := (B754_nan, B754_nan).
Lemma nan2_not_finite : forall x y, ~ cfin (nan2 x y).
Proof. intros x y [H _]. discriminate H. Qed.
Definition C64 : ops := ieee_c 53 1024 prec53 emax1024 nan2 nan2.
Definition cl (a b : F64) : C64 := (a, b).
Arguments cl : simpl never.
Notation cv := (@velt C64). Notation cm := (@melt C64).

(** init + sum x_i y_i *)
Theorem C71_dot : forall prec emax (Hp : Prec_gt_0 prec) (He : Prec_lt_emax prec emax) recover cdiv,
  (forall x y, ~ cfin (recover x y)) -> forall (m : mem (ieee_c prec emax Hp He recover cdiv)) x y f g (init : (ieee_c prec emax Hp He recover cdiv)),
  vext x = vext y -> vec_holds m x f -> vec_holds m y g ->
  succeeds (dot x y init) m (fun r m' => caccurate (vext x + 2) (vext x) init f g r /\ m' = m).
Proof. exact (@dot_complex). Qed.
Print Assumptions C71_dot.

Example C71_dot_case :
  let m : mem C64 := mem_of [cl (fl 1 (-1)) (fl 1 (-54)); cl (fl 3 0) (fl 7 2); cl (fl 5 (-60)) (fl 3 (-3)); cl (fl 1 0) (fl 1 0); cl (fl 1 0) (fl 1 (-54)); cl (fl 1 (-54)) (fl 3 0); cl (fl 7 2) (fl 5 (-1)); cl (fl 3 (-3)) (fl 0 0); cl (fl 1 0) (fl 0 0); cl (fl 1 (-54)) (fl 7 0); cl (fl 3 0) (fl 1 30); cl (fl 5 (-1)) (fl 1 1); cl (fl 0 0) (fl 9 0); cl (fl 0 0) (fl 1 (-1)); cl (fl 7 0) (fl 3 0); cl (fl 1 30) (fl 5 (-60)); cl (fl 1 1) (fl 1 0); cl (fl 9 0) (fl 1 0)] in
  let x : vec C64 := vec_at 8 2 in let y : vec C64 := vec_at 10 2 in
  let f := cv [cl (fl 1 0) (fl 0 0); cl (fl 1 (-54)) (fl 7 0)] in
  let g := cv [cl (fl 3 0) (fl 1 30); cl (fl 5 (-1)) (fl 1 1)] in let init : C64 := cl (fl 1 0) (fl 1 0) in
  succeeds (dot x y init) m (fun r m' => caccurate (vext x + 2) (vext x) init f g r /\ m' = m).
Proof.
  intros m x y f g init. apply (C71_dot 53 1024 prec53 emax1024 nan2 nan2 nan2_not_finite m x y f g init);
    unfold m, x, y, f, g, init; concrete.
Qed.

(** init + sum conj(x_i) y_i *)
Theorem C71_dotc : forall prec emax (Hp : Prec_gt_0 prec) (He : Prec_lt_emax prec emax) recover cdiv,
  (forall x y, ~ cfin (recover x y)) -> forall (m : mem (ieee_c prec emax Hp He recover cdiv)) fix_nc x y f g (init : (ieee_c prec emax Hp He recover cdiv)),
  vext x = vext y -> vec_holds m x f -> vec_holds m y g ->
  succeeds (dotc fix_nc false x y init) m (fun r m' => caccurate (vext x + 2) (vext x) init (fun k => conj_of (f k)) g r /\ m' = m).
Proof. exact (@dotc_complex). Qed.
Print Assumptions C71_dotc.

Example C71_dotc_case :
  let m : mem C64 := mem_of [cl (fl 1 (-1)) (fl 1 (-54)); cl (fl 3 0) (fl 7 2); cl (fl 5 (-60)) (fl 3 (-3)); cl (fl 1 0) (fl 1 0); cl (fl 1 0) (fl 1 (-54)); cl (fl 1 (-54)) (fl 3 0); cl (fl 7 2) (fl 5 (-1)); cl (fl 3 (-3)) (fl 0 0); cl (fl 1 0) (fl 0 0); cl (fl 1 (-54)) (fl 7 0); cl (fl 3 0) (fl 1 30); cl (fl 5 (-1)) (fl 1 1); cl (fl 0 0) (fl 9 0); cl (fl 0 0) (fl 1 (-1)); cl (fl 7 0) (fl 3 0); cl (fl 1 30) (fl 5 (-60)); cl (fl 1 1) (fl 1 0); cl (fl 9 0) (fl 1 0)] in
  let fix_nc := false in let x : vec C64 := vec_at 8 2 in let y : vec C64 := vec_at 10 2 in
  let f := cv [cl (fl 1 0) (fl 0 0); cl (fl 1 (-54)) (fl 7 0)] in
  let g := cv [cl (fl 3 0) (fl 1 30); cl (fl 5 (-1)) (fl 1 1)] in let init : C64 := cl (fl 1 0) (fl 1 0) in
  succeeds (dotc fix_nc false x y init) m (fun r m' => caccurate (vext x + 2) (vext x) init (fun k => conj_of (f k)) g r /\ m' = m).
Proof.
  intros m fix_nc x y f g init. apply (C71_dotc 53 1024 prec53 emax1024 nan2 nan2 nan2_not_finite m fix_nc x y f g init);
    unfold m, fix_nc, x, y, f, g, init; concrete.
Qed.

(** y = A x *)
Theorem C71_gemv : forall prec emax (Hp : Prec_gt_0 prec) (He : Prec_lt_emax prec emax) recover cdiv,
  (forall x y, ~ cfin (recover x y)) -> forall (m : mem (ieee_c prec emax Hp He recover cdiv)) A x y a f,
  vext x = ext1 A -> vext y = ext0 A -> mat_holds m A a -> vec_holds m x f -> vwritable y ->
  allocated m (vcells y) -> disjoint (mcells A) (vcells y) -> disjoint (vcells x) (vcells y) ->
  succeeds (matrix_vector_product A x y) m (fun _ m' =>
    (exists r, vec_holds m' y r /\ forall i, i < vext y -> caccurate (ext1 A + 1) (ext1 A) czero (a i) f (r i)) /\
    changes_only m m' (vcells y)).
Proof. exact (@gemv_complex). Qed.
Print Assumptions C71_gemv.

Example C71_gemv_case :
  let m : mem C64 := mem_of [cl (fl 1 (-1)) (fl 1 (-54)); cl (fl 3 0) (fl 7 2); cl (fl 5 (-60)) (fl 3 (-3)); cl (fl 1 0) (fl 1 0); cl (fl 1 0) (fl 1 (-54)); cl (fl 1 (-54)) (fl 3 0); cl (fl 7 2) (fl 5 (-1)); cl (fl 3 (-3)) (fl 0 0); cl (fl 1 0) (fl 0 0); cl (fl 1 (-54)) (fl 7 0); cl (fl 3 0) (fl 1 30); cl (fl 5 (-1)) (fl 1 1); cl (fl 0 0) (fl 9 0); cl (fl 0 0) (fl 1 (-1)); cl (fl 7 0) (fl 3 0); cl (fl 1 30) (fl 5 (-60)); cl (fl 1 1) (fl 1 0); cl (fl 9 0) (fl 1 0)] in
  let A : mat C64 := row_major 0 2 2 in let x : vec C64 := vec_at 8 2 in let y : vec C64 := vec_at 12 2 in
  let a := cm [[cl (fl 1 (-1)) (fl 1 (-54)); cl (fl 3 0) (fl 7 2)]; [cl (fl 5 (-60)) (fl 3 (-3)); cl (fl 1 0) (fl 1 0)]] in
  let f := cv [cl (fl 1 0) (fl 0 0); cl (fl 1 (-54)) (fl 7 0)] in
  succeeds (matrix_vector_product A x y) m (fun _ m' =>
    (exists r, vec_holds m' y r /\ forall i, i < vext y -> caccurate (ext1 A + 1) (ext1 A) (@zero C64) (a i) f (r i)) /\
    changes_only m m' (vcells y)).
Proof.
  intros m A x y a f. apply (C71_gemv 53 1024 prec53 emax1024 nan2 nan2 nan2_not_finite m A x y a f);
    unfold m, A, x, y, a, f; concrete.
Qed.

(** z = y + A x *)
Theorem C71_gemv_upd : forall prec emax (Hp : Prec_gt_0 prec) (He : Prec_lt_emax prec emax) recover cdiv,
  (forall x y, ~ cfin (recover x y)) -> forall (m : mem (ieee_c prec emax Hp He recover cdiv)) A x y z a f g,
  vext x = ext1 A -> vext y = ext0 A -> vext z = ext0 A -> mat_holds m A a -> vec_holds m x f -> vec_holds m y g ->
  vwritable z -> allocated m (vcells z) -> disjoint (mcells A) (vcells z) -> disjoint (vcells x) (vcells z) ->
  disjoint_or_aligned_v y z ->
  succeeds (matrix_vector_product_upd A x y z) m (fun _ m' =>
    (exists r, vec_holds m' z r /\ forall i, i < vext z -> caccurate (ext1 A + 2) (ext1 A) (g i) (a i) f (r i)) /\
    changes_only m m' (vcells z)).
Proof. exact (@gemv_upd_complex). Qed.
Print Assumptions C71_gemv_upd.

Example C71_gemv_upd_case :
  let m : mem C64 := mem_of [cl (fl 1 (-1)) (fl 1 (-54)); cl (fl 3 0) (fl 7 2); cl (fl 5 (-60)) (fl 3 (-3)); cl (fl 1 0) (fl 1 0); cl (fl 1 0) (fl 1 (-54)); cl (fl 1 (-54)) (fl 3 0); cl (fl 7 2) (fl 5 (-1)); cl (fl 3 (-3)) (fl 0 0); cl (fl 1 0) (fl 0 0); cl (fl 1 (-54)) (fl 7 0); cl (fl 3 0) (fl 1 30); cl (fl 5 (-1)) (fl 1 1); cl (fl 0 0) (fl 9 0); cl (fl 0 0) (fl 1 (-1)); cl (fl 7 0) (fl 3 0); cl (fl 1 30) (fl 5 (-60)); cl (fl 1 1) (fl 1 0); cl (fl 9 0) (fl 1 0)] in
  let A : mat C64 := row_major 0 2 2 in let x : vec C64 := vec_at 8 2 in let y : vec C64 := vec_at 10 2 in
  let z : vec C64 := vec_at 12 2 in
  let a := cm [[cl (fl 1 (-1)) (fl 1 (-54)); cl (fl 3 0) (fl 7 2)]; [cl (fl 5 (-60)) (fl 3 (-3)); cl (fl 1 0) (fl 1 0)]] in
  let f := cv [cl (fl 1 0) (fl 0 0); cl (fl 1 (-54)) (fl 7 0)] in
  let g := cv [cl (fl 3 0) (fl 1 30); cl (fl 5 (-1)) (fl 1 1)] in
  succeeds (matrix_vector_product_upd A x y z) m (fun _ m' =>
    (exists r, vec_holds m' z r /\ forall i, i < vext z -> caccurate (ext1 A + 2) (ext1 A) (g i) (a i) f (r i)) /\
    changes_only m m' (vcells z)).
Proof.
  intros m A x y z a f g. apply (C71_gemv_upd 53 1024 prec53 emax1024 nan2 nan2 nan2_not_finite m A x y z a f g);
    unfold m, A, x, y, z, a, f, g; concrete.
Qed.

(** C = A B *)
Theorem C71_gemm : forall prec emax (Hp : Prec_gt_0 prec) (He : Prec_lt_emax prec emax) recover cdiv,
  (forall x y, ~ cfin (recover x y)) -> forall (m : mem (ieee_c prec emax Hp He recover cdiv)) A B C0 a b,
  ext0 C0 = ext0 A -> ext1 A = ext0 B -> ext1 C0 = ext1 B -> mat_holds m A a -> mat_holds m B b -> mwritable C0 ->
  allocated m (mcells C0) -> disjoint (mcells A) (mcells C0) -> disjoint (mcells B) (mcells C0) ->
  succeeds (matrix_product A B C0) m (fun _ m' =>
    (exists r, mat_holds m' C0 r /\ forall i j, i < ext0 C0 -> j < ext1 C0 ->
       caccurate (ext1 A + 1) (ext1 A) czero (a i) (fun k => b k j) (r i j)) /\
    changes_only m m' (mcells C0)).
Proof. exact (@gemm_complex). Qed.
Print Assumptions C71_gemm.

Example C71_gemm_case :
  let m : mem C64 := mem_of [cl (fl 1 (-1)) (fl 1 (-54)); cl (fl 3 0) (fl 7 2); cl (fl 5 (-60)) (fl 3 (-3)); cl (fl 1 0) (fl 1 0); cl (fl 1 0) (fl 1 (-54)); cl (fl 1 (-54)) (fl 3 0); cl (fl 7 2) (fl 5 (-1)); cl (fl 3 (-3)) (fl 0 0); cl (fl 1 0) (fl 0 0); cl (fl 1 (-54)) (fl 7 0); cl (fl 3 0) (fl 1 30); cl (fl 5 (-1)) (fl 1 1); cl (fl 0 0) (fl 9 0); cl (fl 0 0) (fl 1 (-1)); cl (fl 7 0) (fl 3 0); cl (fl 1 30) (fl 5 (-60)); cl (fl 1 1) (fl 1 0); cl (fl 9 0) (fl 1 0)] in
  let A : mat C64 := row_major 0 2 2 in let B : mat C64 := row_major 4 2 2 in let C0 : mat C64 := row_major 14 2 2 in
  let a := cm [[cl (fl 1 (-1)) (fl 1 (-54)); cl (fl 3 0) (fl 7 2)]; [cl (fl 5 (-60)) (fl 3 (-3)); cl (fl 1 0) (fl 1 0)]] in
  let b := cm [[cl (fl 1 0) (fl 1 (-54)); cl (fl 1 (-54)) (fl 3 0)]; [cl (fl 7 2) (fl 5 (-1)); cl (fl 3 (-3)) (fl 0 0)]] in
  succeeds (matrix_product A B C0) m (fun _ m' =>
    (exists r, mat_holds m' C0 r /\ forall i j, i < ext0 C0 -> j < ext1 C0 ->
       caccurate (ext1 A + 1) (ext1 A) (@zero C64) (a i) (fun k => b k j) (r i j)) /\
    changes_only m m' (mcells C0)).
Proof.
  intros m A B C0 a b. apply (C71_gemm 53 1024 prec53 emax1024 nan2 nan2 nan2_not_finite m A B C0 a b);
    unfold m, A, B, C0, a, b; concrete.
Qed.

(** C = E + A B *)
Theorem C71_gemm_upd : forall prec emax (Hp : Prec_gt_0 prec) (He : Prec_lt_emax prec emax) recover cdiv,
  (forall x y, ~ cfin (recover x y)) -> forall (m : mem (ieee_c prec emax Hp He recover cdiv)) A B E C0 a b e,
  ext0 C0 = ext0 A -> ext1 A = ext0 B -> ext1 C0 = ext1 B -> ext0 E = ext0 C0 -> ext1 E = ext1 C0 ->
  mat_holds m A a -> mat_holds m B b -> mat_holds m E e -> mwritable C0 -> allocated m (mcells C0) ->
  disjoint (mcells A) (mcells C0) -> disjoint (mcells B) (mcells C0) -> disjoint_or_aligned_m E C0 ->
  succeeds (matrix_product_upd A B E C0) m (fun _ m' =>
    (exists r, mat_holds m' C0 r /\ forall i j, i < ext0 C0 -> j < ext1 C0 ->
       caccurate (ext1 A + 2) (ext1 A) (e i j) (a i) (fun k => b k j) (r i j)) /\
    changes_only m m' (mcells C0)).
Proof. exact (@gemm_upd_complex). Qed.
Print Assumptions C71_gemm_upd.

Example C71_gemm_upd_case :
  let m : mem C64 := mem_of [cl (fl 1 (-1)) (fl 1 (-54)); cl (fl 3 0) (fl 7 2); cl (fl 5 (-60)) (fl 3 (-3)); cl (fl 1 0) (fl 1 0); cl (fl 1 0) (fl 1 (-54)); cl (fl 1 (-54)) (fl 3 0); cl (fl 7 2) (fl 5 (-1)); cl (fl 3 (-3)) (fl 0 0); cl (fl 1 0) (fl 0 0); cl (fl 1 (-54)) (fl 7 0); cl (fl 3 0) (fl 1 30); cl (fl 5 (-1)) (fl 1 1); cl (fl 0 0) (fl 9 0); cl (fl 0 0) (fl 1 (-1)); cl (fl 7 0) (fl 3 0); cl (fl 1 30) (fl 5 (-60)); cl (fl 1 1) (fl 1 0); cl (fl 9 0) (fl 1 0)] in
  let A : mat C64 := row_major 0 2 2 in let B : mat C64 := row_major 4 2 2 in let E : mat C64 := row_major 14 2 2 in
  let C0 : mat C64 := row_major 14 2 2 in
  let a := cm [[cl (fl 1 (-1)) (fl 1 (-54)); cl (fl 3 0) (fl 7 2)]; [cl (fl 5 (-60)) (fl 3 (-3)); cl (fl 1 0) (fl 1 0)]] in
  let b := cm [[cl (fl 1 0) (fl 1 (-54)); cl (fl 1 (-54)) (fl 3 0)]; [cl (fl 7 2) (fl 5 (-1)); cl (fl 3 (-3)) (fl 0 0)]] in
  let e := cm [[cl (fl 7 0) (fl 3 0); cl (fl 1 30) (fl 5 (-60))]; [cl (fl 1 1) (fl 1 0); cl (fl 9 0) (fl 1 0)]] in
  succeeds (matrix_product_upd A B E C0) m (fun _ m' =>
    (exists r, mat_holds m' C0 r /\ forall i j, i < ext0 C0 -> j < ext1 C0 ->
       caccurate (ext1 A + 2) (ext1 A) (e i j) (a i) (fun k => b k j) (r i j)) /\
    changes_only m m' (mcells C0)).
Proof.
  intros m A B E C0 a b e. apply (C71_gemm_upd 53 1024 prec53 emax1024 nan2 nan2 nan2_not_finite m A B E C0 a b e);
    unfold m, A, B, E, C0, a, b, e; concrete.
Qed.

(** y = A x, A Hermitian *)
Theorem C71_hemv : forall prec emax (Hp : Prec_gt_0 prec) (He : Prec_lt_emax prec emax) recover cdiv,
  (forall x y, ~ cfin (recover x y)) -> forall (m : mem (ieee_c prec emax Hp He recover cdiv)) A t x y a f,
  ext0 A = ext1 A -> vext x = ext1 A -> vext y = ext0 A -> mat_holds_on m A (in_tri t) a -> vec_holds m x f ->
  vwritable y -> allocated m (vcells y) -> disjoint (mcells_on A (in_tri t)) (vcells y) ->
  disjoint (vcells x) (vcells y) ->
  succeeds (hermitian_matrix_vector_product A t x y) m (fun _ m' =>
    (exists r, vec_holds m' y r /\ forall i, i < vext y -> caccurate (ext1 A + 1) (ext1 A) czero (cherm_of t a i) f (r i)) /\
    changes_only m m' (vcells y)).
Proof. exact (@hemv_complex). Qed.
Print Assumptions C71_hemv.

Example C71_hemv_case :
  let m : mem C64 := mem_of [cl (fl 1 (-1)) (fl 1 (-54)); cl (fl 3 0) (fl 7 2); cl (fl 5 (-60)) (fl 3 (-3)); cl (fl 1 0) (fl 1 0); cl (fl 1 0) (fl 1 (-54)); cl (fl 1 (-54)) (fl 3 0); cl (fl 7 2) (fl 5 (-1)); cl (fl 3 (-3)) (fl 0 0); cl (fl 1 0) (fl 0 0); cl (fl 1 (-54)) (fl 7 0); cl (fl 3 0) (fl 1 30); cl (fl 5 (-1)) (fl 1 1); cl (fl 0 0) (fl 9 0); cl (fl 0 0) (fl 1 (-1)); cl (fl 7 0) (fl 3 0); cl (fl 1 30) (fl 5 (-60)); cl (fl 1 1) (fl 1 0); cl (fl 9 0) (fl 1 0)] in
  let A : mat C64 := row_major 0 2 2 in let t := Lower in let x : vec C64 := vec_at 8 2 in
  let y : vec C64 := vec_at 12 2 in
  let a := cm [[cl (fl 1 (-1)) (fl 1 (-54)); cl (fl 3 0) (fl 7 2)]; [cl (fl 5 (-60)) (fl 3 (-3)); cl (fl 1 0) (fl 1 0)]] in
  let f := cv [cl (fl 1 0) (fl 0 0); cl (fl 1 (-54)) (fl 7 0)] in
  succeeds (hermitian_matrix_vector_product A t x y) m (fun _ m' =>
    (exists r, vec_holds m' y r /\ forall i, i < vext y -> caccurate (ext1 A + 1) (ext1 A) (@zero C64) (@herm_of C64 t a i) f (r i)) /\
    changes_only m m' (vcells y)).
Proof.
  intros m A t x y a f. apply (C71_hemv 53 1024 prec53 emax1024 nan2 nan2 nan2_not_finite m A t x y a f);
    unfold m, A, t, x, y, a, f; concrete.
Qed.

(** z = y + A x, A Hermitian *)
Theorem C71_hemv_upd : forall prec emax (Hp : Prec_gt_0 prec) (He : Prec_lt_emax prec emax) recover cdiv,
  (forall x y, ~ cfin (recover x y)) -> forall (m : mem (ieee_c prec emax Hp He recover cdiv)) A t x y z a f g,
  ext0 A = ext1 A -> vext x = ext1 A -> vext y = ext0 A -> vext z = ext0 A -> mat_holds_on m A (in_tri t) a ->
  vec_holds m x f -> vec_holds m y g -> vwritable z -> allocated m (vcells z) ->
  disjoint (mcells_on A (in_tri t)) (vcells z) -> disjoint (vcells x) (vcells z) -> disjoint_or_aligned_v y z ->
  succeeds (hermitian_matrix_vector_product_upd A t x y z) m (fun _ m' =>
    (exists r, vec_holds m' z r /\ forall i, i < vext z -> caccurate (ext1 A + 2) (ext1 A) (g i) (cherm_of t a i) f (r i)) /\
    changes_only m m' (vcells z)).
Proof. exact (@hemv_upd_complex). Qed.
Print Assumptions C71_hemv_upd.

Example C71_hemv_upd_case :
  let m : mem C64 := mem_of [cl (fl 1 (-1)) (fl 1 (-54)); cl (fl 3 0) (fl 7 2); cl (fl 5 (-60)) (fl 3 (-3)); cl (fl 1 0) (fl 1 0); cl (fl 1 0) (fl 1 (-54)); cl (fl 1 (-54)) (fl 3 0); cl (fl 7 2) (fl 5 (-1)); cl (fl 3 (-3)) (fl 0 0); cl (fl 1 0) (fl 0 0); cl (fl 1 (-54)) (fl 7 0); cl (fl 3 0) (fl 1 30); cl (fl 5 (-1)) (fl 1 1); cl (fl 0 0) (fl 9 0); cl (fl 0 0) (fl 1 (-1)); cl (fl 7 0) (fl 3 0); cl (fl 1 30) (fl 5 (-60)); cl (fl 1 1) (fl 1 0); cl (fl 9 0) (fl 1 0)] in
  let A : mat C64 := row_major 0 2 2 in let t := Lower in let x : vec C64 := vec_at 8 2 in
  let y : vec C64 := vec_at 10 2 in let z : vec C64 := vec_at 12 2 in
  let a := cm [[cl (fl 1 (-1)) (fl 1 (-54)); cl (fl 3 0) (fl 7 2)]; [cl (fl 5 (-60)) (fl 3 (-3)); cl (fl 1 0) (fl 1 0)]] in
  let f := cv [cl (fl 1 0) (fl 0 0); cl (fl 1 (-54)) (fl 7 0)] in
  let g := cv [cl (fl 3 0) (fl 1 30); cl (fl 5 (-1)) (fl 1 1)] in
  succeeds (hermitian_matrix_vector_product_upd A t x y z) m (fun _ m' =>
    (exists r, vec_holds m' z r /\ forall i, i < vext z -> caccurate (ext1 A + 2) (ext1 A) (g i) (@herm_of C64 t a i) f (r i)) /\
    changes_only m m' (vcells z)).
Proof.
  intros m A t x y z a f g. apply (C71_hemv_upd 53 1024 prec53 emax1024 nan2 nan2 nan2_not_finite m A t x y z a f g);
    unfold m, A, t, x, y, z, a, f, g; concrete.
Qed.

(** y = A x, A complex symmetric *)
Theorem C71_symv : forall prec emax (Hp : Prec_gt_0 prec) (He : Prec_lt_emax prec emax) recover cdiv,
  (forall x y, ~ cfin (recover x y)) -> forall (m : mem (ieee_c prec emax Hp He recover cdiv)) A t x y a f,
  ext0 A = ext1 A -> vext x = ext1 A -> vext y = ext0 A -> mat_holds_on m A (in_tri t) a -> vec_holds m x f ->
  vwritable y -> allocated m (vcells y) -> disjoint (mcells_on A (in_tri t)) (vcells y) ->
  disjoint (vcells x) (vcells y) ->
  succeeds (symmetric_matrix_vector_product A t x y) m (fun _ m' =>
    (exists r, vec_holds m' y r /\ forall i, i < vext y -> caccurate (ext1 A + 1) (ext1 A) czero (@sym_of (ieee_c prec emax Hp He recover cdiv) t a i) f (r i)) /\
    changes_only m m' (vcells y)).
Proof. exact (@symv_complex). Qed.
Print Assumptions C71_symv.

Example C71_symv_case :
  let m : mem C64 := mem_of [cl (fl 1 (-1)) (fl 1 (-54)); cl (fl 3 0) (fl 7 2); cl (fl 5 (-60)) (fl 3 (-3)); cl (fl 1 0) (fl 1 0); cl (fl 1 0) (fl 1 (-54)); cl (fl 1 (-54)) (fl 3 0); cl (fl 7 2) (fl 5 (-1)); cl (fl 3 (-3)) (fl 0 0); cl (fl 1 0) (fl 0 0); cl (fl 1 (-54)) (fl 7 0); cl (fl 3 0) (fl 1 30); cl (fl 5 (-1)) (fl 1 1); cl (fl 0 0) (fl 9 0); cl (fl 0 0) (fl 1 (-1)); cl (fl 7 0) (fl 3 0); cl (fl 1 30) (fl 5 (-60)); cl (fl 1 1) (fl 1 0); cl (fl 9 0) (fl 1 0)] in
  let A : mat C64 := row_major 0 2 2 in let t := Lower in let x : vec C64 := vec_at 8 2 in
  let y : vec C64 := vec_at 12 2 in
  let a := cm [[cl (fl 1 (-1)) (fl 1 (-54)); cl (fl 3 0) (fl 7 2)]; [cl (fl 5 (-60)) (fl 3 (-3)); cl (fl 1 0) (fl 1 0)]] in
  let f := cv [cl (fl 1 0) (fl 0 0); cl (fl 1 (-54)) (fl 7 0)] in
  succeeds (symmetric_matrix_vector_product A t x y) m (fun _ m' =>
    (exists r, vec_holds m' y r /\ forall i, i < vext y -> caccurate (ext1 A + 1) (ext1 A) (@zero C64) (@sym_of C64 t a i) f (r i)) /\
    changes_only m m' (vcells y)).
Proof.
  intros m A t x y a f. apply (C71_symv 53 1024 prec53 emax1024 nan2 nan2 nan2_not_finite m A t x y a f);
    unfold m, A, t, x, y, a, f; concrete.
Qed.

(** C = A B, A Hermitian *)
Theorem C71_hemm_left : forall prec emax (Hp : Prec_gt_0 prec) (He : Prec_lt_emax prec emax) recover cdiv,
  (forall x y, ~ cfin (recover x y)) -> forall (m : mem (ieee_c prec emax Hp He recover cdiv)) A t B C0 a b,
  ext0 A = ext1 A -> ext0 C0 = ext0 A -> ext1 A = ext0 B -> ext1 C0 = ext1 B -> mat_holds_on m A (in_tri t) a ->
  mat_holds m B b -> mwritable C0 -> allocated m (mcells C0) -> disjoint (mcells_on A (in_tri t)) (mcells C0) ->
  disjoint (mcells B) (mcells C0) ->
  succeeds (hermitian_matrix_product_left A t B C0) m (fun _ m' =>
    (exists r, mat_holds m' C0 r /\ forall i j, i < ext0 C0 -> j < ext1 C0 ->
       caccurate (ext1 A + 1) (ext1 A) czero (cherm_of t a i) (fun k => b k j) (r i j)) /\
    changes_only m m' (mcells C0)).
Proof. exact (@hemm_left_complex). Qed.
Print Assumptions C71_hemm_left.

Example C71_hemm_left_case :
  let m : mem C64 := mem_of [cl (fl 1 (-1)) (fl 1 (-54)); cl (fl 3 0) (fl 7 2); cl (fl 5 (-60)) (fl 3 (-3)); cl (fl 1 0) (fl 1 0); cl (fl 1 0) (fl 1 (-54)); cl (fl 1 (-54)) (fl 3 0); cl (fl 7 2) (fl 5 (-1)); cl (fl 3 (-3)) (fl 0 0); cl (fl 1 0) (fl 0 0); cl (fl 1 (-54)) (fl 7 0); cl (fl 3 0) (fl 1 30); cl (fl 5 (-1)) (fl 1 1); cl (fl 0 0) (fl 9 0); cl (fl 0 0) (fl 1 (-1)); cl (fl 7 0) (fl 3 0); cl (fl 1 30) (fl 5 (-60)); cl (fl 1 1) (fl 1 0); cl (fl 9 0) (fl 1 0)] in
  let A : mat C64 := row_major 0 2 2 in let t := Lower in let B : mat C64 := row_major 4 2 2 in
  let C0 : mat C64 := row_major 14 2 2 in
  let a := cm [[cl (fl 1 (-1)) (fl 1 (-54)); cl (fl 3 0) (fl 7 2)]; [cl (fl 5 (-60)) (fl 3 (-3)); cl (fl 1 0) (fl 1 0)]] in
  let b := cm [[cl (fl 1 0) (fl 1 (-54)); cl (fl 1 (-54)) (fl 3 0)]; [cl (fl 7 2) (fl 5 (-1)); cl (fl 3 (-3)) (fl 0 0)]] in
  succeeds (hermitian_matrix_product_left A t B C0) m (fun _ m' =>
    (exists r, mat_holds m' C0 r /\ forall i j, i < ext0 C0 -> j < ext1 C0 ->
       caccurate (ext1 A + 1) (ext1 A) (@zero C64) (@herm_of C64 t a i) (fun k => b k j) (r i j)) /\
    changes_only m m' (mcells C0)).
Proof.
  intros m A t B C0 a b. apply (C71_hemm_left 53 1024 prec53 emax1024 nan2 nan2 nan2_not_finite m A t B C0 a b);
    unfold m, A, t, B, C0, a, b; concrete.
Qed.

(** A += x y^T *)
Theorem C71_ger : forall prec emax (Hp : Prec_gt_0 prec) (He : Prec_lt_emax prec emax) recover cdiv,
  (forall x y, ~ cfin (recover x y)) -> forall (m : mem (ieee_c prec emax Hp He recover cdiv)) x y A a f g,
  vext x = ext0 A -> vext y = ext1 A -> mat_holds m A a -> vec_holds m x f -> vec_holds m y g -> mwritable A ->
  disjoint (vcells x) (mcells A) -> disjoint (vcells y) (mcells A) ->
  succeeds (matrix_rank_1_update x y A) m (fun _ m' =>
    (exists r, mat_holds m' A r /\ forall i j, i < ext0 A -> j < ext1 A ->
       caccurate 3 1 (a i j) (fun _ => f i) (fun _ => g j) (r i j)) /\
    changes_only m m' (mcells A)).
Proof. exact (@ger_complex). Qed.
Print Assumptions C71_ger.

Example C71_ger_case :
  let m : mem C64 := mem_of [cl (fl 1 (-1)) (fl 1 (-54)); cl (fl 3 0) (fl 7 2); cl (fl 5 (-60)) (fl 3 (-3)); cl (fl 1 0) (fl 1 0); cl (fl 1 0) (fl 1 (-54)); cl (fl 1 (-54)) (fl 3 0); cl (fl 7 2) (fl 5 (-1)); cl (fl 3 (-3)) (fl 0 0); cl (fl 1 0) (fl 0 0); cl (fl 1 (-54)) (fl 7 0); cl (fl 3 0) (fl 1 30); cl (fl 5 (-1)) (fl 1 1); cl (fl 0 0) (fl 9 0); cl (fl 0 0) (fl 1 (-1)); cl (fl 7 0) (fl 3 0); cl (fl 1 30) (fl 5 (-60)); cl (fl 1 1) (fl 1 0); cl (fl 9 0) (fl 1 0)] in
  let x : vec C64 := vec_at 8 2 in let y : vec C64 := vec_at 10 2 in let A : mat C64 := row_major 0 2 2 in
  let a := cm [[cl (fl 1 (-1)) (fl 1 (-54)); cl (fl 3 0) (fl 7 2)]; [cl (fl 5 (-60)) (fl 3 (-3)); cl (fl 1 0) (fl 1 0)]] in
  let f := cv [cl (fl 1 0) (fl 0 0); cl (fl 1 (-54)) (fl 7 0)] in
  let g := cv [cl (fl 3 0) (fl 1 30); cl (fl 5 (-1)) (fl 1 1)] in
  succeeds (matrix_rank_1_update x y A) m (fun _ m' =>
    (exists r, mat_holds m' A r /\ forall i j, i < ext0 A -> j < ext1 A ->
       caccurate 3 1 (a i j) (fun _ => f i) (fun _ => g j) (r i j)) /\
    changes_only m m' (mcells A)).
Proof.
  intros m x y A a f g. apply (C71_ger 53 1024 prec53 emax1024 nan2 nan2 nan2_not_finite m x y A a f g);
    unfold m, x, y, A, a, f, g; concrete.
Qed.

(** A += x y^H *)
Theorem C71_gerc : forall prec emax (Hp : Prec_gt_0 prec) (He : Prec_lt_emax prec emax) recover cdiv,
  (forall x y, ~ cfin (recover x y)) -> forall (m : mem (ieee_c prec emax Hp He recover cdiv)) fix_nc x y A a f g,
  vext x = ext0 A -> vext y = ext1 A -> mat_holds m A a -> vec_holds m x f -> vec_holds m y g -> mwritable A ->
  disjoint (vcells x) (mcells A) -> disjoint (vcells y) (mcells A) ->
  succeeds (matrix_rank_1_update_c fix_nc false x y A) m (fun _ m' =>
    (exists r, mat_holds m' A r /\ forall i j, i < ext0 A -> j < ext1 A ->
       caccurate 3 1 (a i j) (fun _ => f i) (fun _ => conj_of (g j)) (r i j)) /\
    changes_only m m' (mcells A)).
Proof. exact (@gerc_complex). Qed.
Print Assumptions C71_gerc.

Example C71_gerc_case :
  let m : mem C64 := mem_of [cl (fl 1 (-1)) (fl 1 (-54)); cl (fl 3 0) (fl 7 2); cl (fl 5 (-60)) (fl 3 (-3)); cl (fl 1 0) (fl 1 0); cl (fl 1 0) (fl 1 (-54)); cl (fl 1 (-54)) (fl 3 0); cl (fl 7 2) (fl 5 (-1)); cl (fl 3 (-3)) (fl 0 0); cl (fl 1 0) (fl 0 0); cl (fl 1 (-54)) (fl 7 0); cl (fl 3 0) (fl 1 30); cl (fl 5 (-1)) (fl 1 1); cl (fl 0 0) (fl 9 0); cl (fl 0 0) (fl 1 (-1)); cl (fl 7 0) (fl 3 0); cl (fl 1 30) (fl 5 (-60)); cl (fl 1 1) (fl 1 0); cl (fl 9 0) (fl 1 0)] in
  let fix_nc := false in let x : vec C64 := vec_at 8 2 in let y : vec C64 := vec_at 10 2 in
  let A : mat C64 := row_major 0 2 2 in
  let a := cm [[cl (fl 1 (-1)) (fl 1 (-54)); cl (fl 3 0) (fl 7 2)]; [cl (fl 5 (-60)) (fl 3 (-3)); cl (fl 1 0) (fl 1 0)]] in
  let f := cv [cl (fl 1 0) (fl 0 0); cl (fl 1 (-54)) (fl 7 0)] in
  let g := cv [cl (fl 3 0) (fl 1 30); cl (fl 5 (-1)) (fl 1 1)] in
  succeeds (matrix_rank_1_update_c fix_nc false x y A) m (fun _ m' =>
    (exists r, mat_holds m' A r /\ forall i j, i < ext0 A -> j < ext1 A ->
       caccurate 3 1 (a i j) (fun _ => f i) (fun _ => conj_of (g j)) (r i j)) /\
    changes_only m m' (mcells A)).
Proof.
  intros m fix_nc x y A a f g. apply (C71_gerc 53 1024 prec53 emax1024 nan2 nan2 nan2_not_finite m fix_nc x y A a f g);
    unfold m, fix_nc, x, y, A, a, f, g; concrete.
Qed.

(** A += x x^H *)
Theorem C71_her : forall prec emax (Hp : Prec_gt_0 prec) (He : Prec_lt_emax prec emax) recover cdiv,
  (forall x y, ~ cfin (recover x y)) -> forall (m : mem (ieee_c prec emax Hp He recover cdiv)) x A t a f,
  ext0 A = ext1 A -> vext x = ext0 A -> mat_holds_on m A (in_tri t) a -> vec_holds m x f ->
  mwritable_on A (in_tri t) -> disjoint (vcells x) (mcells_on A (in_tri t)) ->
  succeeds (hermitian_matrix_rank_1_update x A t) m (fun _ m' =>
    (exists r, mat_holds_on m' A (in_tri t) r /\ forall i j, i < ext0 A -> j < ext1 A -> in_tri t i j ->
       caccurate 3 1 (cherm_of t a i j) (fun _ => f i) (fun _ => conj_of (f j)) (r i j)) /\
    changes_only m m' (mcells_on A (in_tri t))).
Proof. exact (@her_complex). Qed.
Print Assumptions C71_her.

Example C71_her_case :
  let m : mem C64 := mem_of [cl (fl 1 (-1)) (fl 1 (-54)); cl (fl 3 0) (fl 7 2); cl (fl 5 (-60)) (fl 3 (-3)); cl (fl 1 0) (fl 1 0); cl (fl 1 0) (fl 1 (-54)); cl (fl 1 (-54)) (fl 3 0); cl (fl 7 2) (fl 5 (-1)); cl (fl 3 (-3)) (fl 0 0); cl (fl 1 0) (fl 0 0); cl (fl 1 (-54)) (fl 7 0); cl (fl 3 0) (fl 1 30); cl (fl 5 (-1)) (fl 1 1); cl (fl 0 0) (fl 9 0); cl (fl 0 0) (fl 1 (-1)); cl (fl 7 0) (fl 3 0); cl (fl 1 30) (fl 5 (-60)); cl (fl 1 1) (fl 1 0); cl (fl 9 0) (fl 1 0)] in
  let x : vec C64 := vec_at 8 2 in let A : mat C64 := row_major 0 2 2 in let t := Lower in
  let a := cm [[cl (fl 1 (-1)) (fl 1 (-54)); cl (fl 3 0) (fl 7 2)]; [cl (fl 5 (-60)) (fl 3 (-3)); cl (fl 1 0) (fl 1 0)]] in
  let f := cv [cl (fl 1 0) (fl 0 0); cl (fl 1 (-54)) (fl 7 0)] in
  succeeds (hermitian_matrix_rank_1_update x A t) m (fun _ m' =>
    (exists r, mat_holds_on m' A (in_tri t) r /\ forall i j, i < ext0 A -> j < ext1 A -> in_tri t i j ->
       caccurate 3 1 (@herm_of C64 t a i j) (fun _ => f i) (fun _ => conj_of (f j)) (r i j)) /\
    changes_only m m' (mcells_on A (in_tri t))).
Proof.
  intros m x A t a f. apply (C71_her 53 1024 prec53 emax1024 nan2 nan2 nan2_not_finite m x A t a f);
    unfold m, x, A, t, a, f; concrete.
Qed.

(** A += x y^H + y x^H *)
Theorem C71_her2 : forall prec emax (Hp : Prec_gt_0 prec) (He : Prec_lt_emax prec emax) recover cdiv,
  (forall x y, ~ cfin (recover x y)) -> forall (m : mem (ieee_c prec emax Hp He recover cdiv)) x y A t a f g,
  ext0 A = ext1 A -> vext x = ext0 A -> vext y = ext0 A -> mat_holds_on m A (in_tri t) a -> vec_holds m x f ->
  vec_holds m y g -> mwritable_on A (in_tri t) -> disjoint (vcells x) (mcells_on A (in_tri t)) ->
  disjoint (vcells y) (mcells_on A (in_tri t)) ->
  succeeds (hermitian_matrix_rank_2_update x y A t) m (fun _ m' =>
    (exists r, mat_holds_on m' A (in_tri t) r /\ forall i j, i < ext0 A -> j < ext1 A -> in_tri t i j ->
       caccurate2 4 1 (cherm_of t a i j) (fun _ => f i) (fun _ => conj_of (g j)) (fun _ => g i) (fun _ => conj_of (f j)) (r i j)) /\
    changes_only m m' (mcells_on A (in_tri t))).
Proof. exact (@her2_complex). Qed.
Print Assumptions C71_her2.

Example C71_her2_case :
  let m : mem C64 := mem_of [cl (fl 1 (-1)) (fl 1 (-54)); cl (fl 3 0) (fl 7 2); cl (fl 5 (-60)) (fl 3 (-3)); cl (fl 1 0) (fl 1 0); cl (fl 1 0) (fl 1 (-54)); cl (fl 1 (-54)) (fl 3 0); cl (fl 7 2) (fl 5 (-1)); cl (fl 3 (-3)) (fl 0 0); cl (fl 1 0) (fl 0 0); cl (fl 1 (-54)) (fl 7 0); cl (fl 3 0) (fl 1 30); cl (fl 5 (-1)) (fl 1 1); cl (fl 0 0) (fl 9 0); cl (fl 0 0) (fl 1 (-1)); cl (fl 7 0) (fl 3 0); cl (fl 1 30) (fl 5 (-60)); cl (fl 1 1) (fl 1 0); cl (fl 9 0) (fl 1 0)] in
  let x : vec C64 := vec_at 8 2 in let y : vec C64 := vec_at 10 2 in let A : mat C64 := row_major 0 2 2 in
  let t := Lower in
  let a := cm [[cl (fl 1 (-1)) (fl 1 (-54)); cl (fl 3 0) (fl 7 2)]; [cl (fl 5 (-60)) (fl 3 (-3)); cl (fl 1 0) (fl 1 0)]] in
  let f := cv [cl (fl 1 0) (fl 0 0); cl (fl 1 (-54)) (fl 7 0)] in
  let g := cv [cl (fl 3 0) (fl 1 30); cl (fl 5 (-1)) (fl 1 1)] in
  succeeds (hermitian_matrix_rank_2_update x y A t) m (fun _ m' =>
    (exists r, mat_holds_on m' A (in_tri t) r /\ forall i j, i < ext0 A -> j < ext1 A -> in_tri t i j ->
       caccurate2 4 1 (@herm_of C64 t a i j) (fun _ => f i) (fun _ => conj_of (g j)) (fun _ => g i) (fun _ => conj_of (f j)) (r i j)) /\
    changes_only m m' (mcells_on A (in_tri t))).
Proof.
  intros m x y A t a f g. apply (C71_her2 53 1024 prec53 emax1024 nan2 nan2 nan2_not_finite m x y A t a f g);
    unfold m, x, y, A, t, a, f, g; concrete.
Qed.

(** C += A A^H *)
Theorem C71_herk : forall prec emax (Hp : Prec_gt_0 prec) (He : Prec_lt_emax prec emax) recover cdiv,
  (forall x y, ~ cfin (recover x y)) -> forall (m : mem (ieee_c prec emax Hp He recover cdiv)) A C0 t a c,
  ext0 C0 = ext1 C0 -> ext0 A = ext0 C0 -> mat_holds m A a -> mat_holds_on m C0 (in_tri t) c ->
  mwritable_on C0 (in_tri t) -> disjoint (mcells A) (mcells_on C0 (in_tri t)) ->
  succeeds (hermitian_matrix_rank_k_update A C0 t) m (fun _ m' =>
    (exists r, mat_holds_on m' C0 (in_tri t) r /\ forall i j, i < ext0 C0 -> j < ext1 C0 -> in_tri t i j ->
       caccurate (ext1 A + 2) (ext1 A) (cherm_of t c i j) (a i) (fun k => conj_of (a j k)) (r i j)) /\
    changes_only m m' (mcells_on C0 (in_tri t))).
Proof. exact (@herk_complex). Qed.
Print Assumptions C71_herk.

Example C71_herk_case :
  let m : mem C64 := mem_of [cl (fl 1 (-1)) (fl 1 (-54)); cl (fl 3 0) (fl 7 2); cl (fl 5 (-60)) (fl 3 (-3)); cl (fl 1 0) (fl 1 0); cl (fl 1 0) (fl 1 (-54)); cl (fl 1 (-54)) (fl 3 0); cl (fl 7 2) (fl 5 (-1)); cl (fl 3 (-3)) (fl 0 0); cl (fl 1 0) (fl 0 0); cl (fl 1 (-54)) (fl 7 0); cl (fl 3 0) (fl 1 30); cl (fl 5 (-1)) (fl 1 1); cl (fl 0 0) (fl 9 0); cl (fl 0 0) (fl 1 (-1)); cl (fl 7 0) (fl 3 0); cl (fl 1 30) (fl 5 (-60)); cl (fl 1 1) (fl 1 0); cl (fl 9 0) (fl 1 0)] in
  let A : mat C64 := row_major 0 2 2 in let C0 : mat C64 := row_major 14 2 2 in let t := Lower in
  let a := cm [[cl (fl 1 (-1)) (fl 1 (-54)); cl (fl 3 0) (fl 7 2)]; [cl (fl 5 (-60)) (fl 3 (-3)); cl (fl 1 0) (fl 1 0)]] in
  let c := cm [[cl (fl 7 0) (fl 3 0); cl (fl 1 30) (fl 5 (-60))]; [cl (fl 1 1) (fl 1 0); cl (fl 9 0) (fl 1 0)]] in
  succeeds (hermitian_matrix_rank_k_update A C0 t) m (fun _ m' =>
    (exists r, mat_holds_on m' C0 (in_tri t) r /\ forall i j, i < ext0 C0 -> j < ext1 C0 -> in_tri t i j ->
       caccurate (ext1 A + 2) (ext1 A) (@herm_of C64 t c i j) (a i) (fun k => conj_of (a j k)) (r i j)) /\
    changes_only m m' (mcells_on C0 (in_tri t))).
Proof.
  intros m A C0 t a c. apply (C71_herk 53 1024 prec53 emax1024 nan2 nan2 nan2_not_finite m A C0 t a c);
    unfold m, A, C0, t, a, c; concrete.
Qed.

(** C += A B^H + B A^H *)
Theorem C71_her2k : forall prec emax (Hp : Prec_gt_0 prec) (He : Prec_lt_emax prec emax) recover cdiv,
  (forall x y, ~ cfin (recover x y)) -> forall (m : mem (ieee_c prec emax Hp He recover cdiv)) A B C0 t a b c,
  ext0 C0 = ext1 C0 -> ext0 A = ext0 C0 -> ext0 B = ext0 C0 -> ext1 B = ext1 A -> mat_holds m A a ->
  mat_holds m B b -> mat_holds_on m C0 (in_tri t) c -> mwritable_on C0 (in_tri t) ->
  disjoint (mcells A) (mcells_on C0 (in_tri t)) -> disjoint (mcells B) (mcells_on C0 (in_tri t)) ->
  succeeds (hermitian_matrix_rank_2k_update A B C0 t) m (fun _ m' =>
    (exists r, mat_holds_on m' C0 (in_tri t) r /\ forall i j, i < ext0 C0 -> j < ext1 C0 -> in_tri t i j ->
       caccurate2 (ext1 A + 3) (ext1 A) (cherm_of t c i j) (a i) (fun k => conj_of (b j k)) (b i) (fun k => conj_of (a j k)) (r i j)) /\
    changes_only m m' (mcells_on C0 (in_tri t))).
Proof. exact (@her2k_complex). Qed.
Print Assumptions C71_her2k.

Example C71_her2k_case :
  let m : mem C64 := mem_of [cl (fl 1 (-1)) (fl 1 (-54)); cl (fl 3 0) (fl 7 2); cl (fl 5 (-60)) (fl 3 (-3)); cl (fl 1 0) (fl 1 0); cl (fl 1 0) (fl 1 (-54)); cl (fl 1 (-54)) (fl 3 0); cl (fl 7 2) (fl 5 (-1)); cl (fl 3 (-3)) (fl 0 0); cl (fl 1 0) (fl 0 0); cl (fl 1 (-54)) (fl 7 0); cl (fl 3 0) (fl 1 30); cl (fl 5 (-1)) (fl 1 1); cl (fl 0 0) (fl 9 0); cl (fl 0 0) (fl 1 (-1)); cl (fl 7 0) (fl 3 0); cl (fl 1 30) (fl 5 (-60)); cl (fl 1 1) (fl 1 0); cl (fl 9 0) (fl 1 0)] in
  let A : mat C64 := row_major 0 2 2 in let B : mat C64 := row_major 4 2 2 in let C0 : mat C64 := row_major 14 2 2 in
  let t := Lower in
  let a := cm [[cl (fl 1 (-1)) (fl 1 (-54)); cl (fl 3 0) (fl 7 2)]; [cl (fl 5 (-60)) (fl 3 (-3)); cl (fl 1 0) (fl 1 0)]] in
  let b := cm [[cl (fl 1 0) (fl 1 (-54)); cl (fl 1 (-54)) (fl 3 0)]; [cl (fl 7 2) (fl 5 (-1)); cl (fl 3 (-3)) (fl 0 0)]] in
  let c := cm [[cl (fl 7 0) (fl 3 0); cl (fl 1 30) (fl 5 (-60))]; [cl (fl 1 1) (fl 1 0); cl (fl 9 0) (fl 1 0)]] in
  succeeds (hermitian_matrix_rank_2k_update A B C0 t) m (fun _ m' =>
    (exists r, mat_holds_on m' C0 (in_tri t) r /\ forall i j, i < ext0 C0 -> j < ext1 C0 -> in_tri t i j ->
       caccurate2 (ext1 A + 3) (ext1 A) (@herm_of C64 t c i j) (a i) (fun k => conj_of (b j k)) (b i) (fun k => conj_of (a j k)) (r i j)) /\
    changes_only m m' (mcells_on C0 (in_tri t))).
Proof.
  intros m A B C0 t a b c. apply (C71_her2k 53 1024 prec53 emax1024 nan2 nan2 nan2_not_finite m A B C0 t a b c);
    unfold m, A, B, C0, t, a, b, c; concrete.
Qed.

(** conj(1 + 2^-53 i) (1 + i) + 0 is computed as 1 + (1 - 2^-53) i; the exact value is 1 + 2^-53 + (1 - 2^-53) i.  The result is
    finite, so the bounds of C71_dotc apply to it. *)
Example C71_dotc_value :
  let m : mem C64 := mem_of [cl (fl 1 0) (fl 1 (-53)); cl (fl 1 0) (fl 1 0)] in
  match run (dotc false false (vec_at 0 1) (vec_at 1 1) (cl (fl 0 0) (fl 0 0))) m with
  | Ok r _ => (B2SF (fst r), B2SF (snd r)) = (B2SF (fl 1 0), B2SF (fl 9007199254740991 (-53)))
  | Err _ _ => False
  end.
Proof. vm_compute. reflexivity. Qed.

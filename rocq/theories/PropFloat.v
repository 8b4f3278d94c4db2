(** C59-C61: floating-point error bounds of products and triangular solves, and the order of operations they rest on.
    They hold for every IEEE 754 binary format: precision [prec], largest exponent [emax] (53 and 1024 for double). *)
From Coq Require Import List Arith ZArith Reals Lia Lra Bool.
From Flocq Require Import Core.Core IEEE754.BinarySingleNaN.
From Verif Require Import Mem Scalar View Spec SpecR SpecF SpecSub Idx Norm Ieee Blas1 Blas2 Blas3 Wp
  PfFloat PfSub Inst PropBlas2.
Import ListNotations.
Local Open Scope nat_scope.

(** Binary64 numbers m 2^e for the concrete cases. *)
Definition F64 : ops := ieee_ops 53 1024 prec53 emax1024.
Definition fl (m e : Z) : F64 := binary_normalize 53 1024 prec53 emax1024 mode_NE m e false.
Arguments fl : simpl never.
Notation fv := (@velt F64). Notation fm := (@melt F64).

(** * C59: error bounds of sums of products *)
(** init + sum x_i y_i *)
Theorem C59_dot : forall prec emax (Hp : Prec_gt_0 prec) (He : Prec_lt_emax prec emax) (m : mem (ieee_ops prec emax Hp He)) x y f g init,
  vext x = vext y -> vec_holds m x f -> vec_holds m y g ->
  succeeds (dot x y init) m (fun r m' => accurate (vext x + 1) (vext x) init f g r /\ m' = m).
Proof. exact (@dot_float). Qed.
Print Assumptions C59_dot.

(** 1 + (1 * 1 + 1 * 2^-53) is computed as 2 while the exact value is 2 + 2^-53: rounding acts, the bound holds. *)
Example C59_dot_case :
  let m : mem F64 := mem_of [fl 1 0; fl 1 0; fl 1 0; fl 1 (-53)] in
  let f := fv [fl 1 0; fl 1 0] in let g := fv [fl 1 0; fl 1 (-53)] in
  exists r, run (dot (vec_at 0 2) (vec_at 2 2) (fl 1 0)) m = Ok r m /\ B2SF r = B2SF (fl 2 0) /\
  (Rabs (B2R r - (B2R (fl 1 0) + rsum 2 (fun k => B2R (f k) * B2R (g k))))
   <= gam 53 3 * (Rabs (B2R (fl 1 0)) + rsum 2 (fun k => Rabs (B2R (f k)) * Rabs (B2R (g k)))) + tiny 53 1024 2 2)%R.
Proof.
  intros.
  assert (match run (dot (vec_at 0 2) (vec_at 2 2) (fl 1 0)) m with Ok r _ => Some (B2SF r) | _ => None end = Some (B2SF (fl 2 0))) as E
    by (vm_compute; reflexivity).
  assert (succeeds (dot (vec_at 0 2) (vec_at 2 2) (fl 1 0)) m (fun r m' => accurate 3 2 (fl 1 0) f g r /\ m' = m)) as H
    by (apply (C59_dot 53 1024 prec53 emax1024 m (vec_at 0 2) (vec_at 2 2) f g (fl 1 0)); concrete).
  destruct H as (r & m' & Er & [H _] & ->). rewrite Er in E. exists r. split; [exact Er|].
  inversion E as [E']. split; [exact E'|]. apply H.
  rewrite <- is_finite_SF_B2SF, E'. vm_compute; reflexivity.
Qed.

(** sum x_i y_i *)
Theorem C59_dot_noinit : forall prec emax (Hp : Prec_gt_0 prec) (He : Prec_lt_emax prec emax) (m : mem (ieee_ops prec emax Hp He)) x y f g,
  vext x = vext y -> vec_holds m x f -> vec_holds m y g ->
  succeeds (dot_noinit x y) m (fun r m' => accurate (vext x) (vext x) (B754_zero false) f g r /\ m' = m).
Proof. exact (@dot_noinit_float). Qed.
Print Assumptions C59_dot_noinit.

(** 3 * 5 + 1/4 * 2 *)
Example C59_dot_noinit_case :
  let m : mem F64 := mem_of [fl 3 0; fl 1 (-2); fl 5 0; fl 1 1] in
  succeeds (dot_noinit (vec_at 0 2) (vec_at 2 2)) m (fun r m' =>
    accurate 2 2 (@zero F64) (fv [fl 3 0; fl 1 (-2)]) (fv [fl 5 0; fl 1 1]) r /\ m' = m).
Proof.
  intros. apply (C59_dot_noinit 53 1024 prec53 emax1024 m (vec_at 0 2) (vec_at 2 2)); concrete.
Qed.

(** y = A x *)
Theorem C59_gemv : forall prec emax (Hp : Prec_gt_0 prec) (He : Prec_lt_emax prec emax) (m : mem (ieee_ops prec emax Hp He)) A x y a f,
  vext x = ext1 A -> vext y = ext0 A ->
  mat_holds m A a -> vec_holds m x f -> vwritable y -> allocated m (vcells y) ->
  disjoint (mcells A) (vcells y) -> disjoint (vcells x) (vcells y) ->
  succeeds (matrix_vector_product A x y) m (fun _ m' =>
    (exists r, vec_holds m' y r /\ forall i, i < vext y -> accurate (ext1 A) (ext1 A) (B754_zero false) (a i) f (r i)) /\
    changes_only m m' (vcells y)).
Proof. exact (@gemv_float). Qed.
Print Assumptions C59_gemv.

(** A = [1/2 3; 2^-60 1], x = (1, 2^-54) *)
Example C59_gemv_case :
  let m : mem F64 := mem_of [fl 1 (-1); fl 3 0; fl 1 (-60); fl 1 0; fl 1 0; fl 1 (-54); fl 0 0; fl 0 0] in
  let a := fm [[fl 1 (-1); fl 3 0]; [fl 1 (-60); fl 1 0]] in
  succeeds (matrix_vector_product (row_major 0 2 2) (vec_at 4 2) (vec_at 6 2)) m (fun _ m' =>
    (exists r, vec_holds m' (vec_at 6 2) r /\ forall i, i < 2 -> accurate 2 2 (@zero F64) (a i) (fv [fl 1 0; fl 1 (-54)]) (r i)) /\
    changes_only m m' (vcells (@vec_at F64 6 2))).
Proof.
  intros. apply (C59_gemv 53 1024 prec53 emax1024 m (row_major 0 2 2) (vec_at 4 2) (vec_at 6 2)); concrete.
Qed.

(** z = y + A x *)
Theorem C59_gemv_upd : forall prec emax (Hp : Prec_gt_0 prec) (He : Prec_lt_emax prec emax) (m : mem (ieee_ops prec emax Hp He)) A x y z a f g,
  vext x = ext1 A -> vext y = ext0 A -> vext z = ext0 A ->
  mat_holds m A a -> vec_holds m x f -> vec_holds m y g -> vwritable z -> allocated m (vcells z) ->
  disjoint (mcells A) (vcells z) -> disjoint (vcells x) (vcells z) -> disjoint_or_aligned_v y z ->
  succeeds (matrix_vector_product_upd A x y z) m (fun _ m' =>
    (exists r, vec_holds m' z r /\ forall i, i < vext z -> accurate (ext1 A + 1) (ext1 A) (g i) (a i) f (r i)) /\
    changes_only m m' (vcells z)).
Proof. exact (@gemv_upd_float). Qed.
Print Assumptions C59_gemv_upd.

(** The same product added to y = (7, 2^70) in place. *)
Example C59_gemv_upd_case :
  let m : mem F64 := mem_of [fl 1 (-1); fl 3 0; fl 1 (-60); fl 1 0; fl 1 0; fl 1 (-54); fl 7 0; fl 1 70] in
  let a := fm [[fl 1 (-1); fl 3 0]; [fl 1 (-60); fl 1 0]] in
  succeeds (matrix_vector_product_upd (row_major 0 2 2) (vec_at 4 2) (vec_at 6 2) (vec_at 6 2)) m (fun _ m' =>
    (exists r, vec_holds m' (vec_at 6 2) r /\ forall i, i < 2 ->
       accurate 3 2 (fv [fl 7 0; fl 1 70] i) (a i) (fv [fl 1 0; fl 1 (-54)]) (r i)) /\
    changes_only m m' (vcells (@vec_at F64 6 2))).
Proof.
  intros. apply (C59_gemv_upd 53 1024 prec53 emax1024 m (row_major 0 2 2) (vec_at 4 2) (vec_at 6 2) (vec_at 6 2) a); concrete.
Qed.

(** C = A B *)
Theorem C59_gemm : forall prec emax (Hp : Prec_gt_0 prec) (He : Prec_lt_emax prec emax) (m : mem (ieee_ops prec emax Hp He)) A B C a b,
  ext0 C = ext0 A -> ext1 A = ext0 B -> ext1 C = ext1 B ->
  mat_holds m A a -> mat_holds m B b -> mwritable C -> allocated m (mcells C) ->
  disjoint (mcells A) (mcells C) -> disjoint (mcells B) (mcells C) ->
  succeeds (matrix_product A B C) m (fun _ m' =>
    (exists r, mat_holds m' C r /\ forall i j, i < ext0 C -> j < ext1 C ->
       accurate (ext1 A) (ext1 A) (B754_zero false) (a i) (fun k => b k j) (r i j)) /\
    changes_only m m' (mcells C)).
Proof. exact (@gemm_float). Qed.
Print Assumptions C59_gemm.

(** A a 1x2 row, B a 2x2 column-major matrix *)
Example C59_gemm_case :
  let m : mem F64 := mem_of [fl 1 (-1); fl 3 0; fl 1 (-60); fl 1 0; fl 1 0; fl 1 (-54); fl 7 0; fl 1 70] in
  let a := fm [[fl 1 (-1); fl 3 0]] in let b := fm [[fl 1 (-60); fl 1 0]; [fl 1 0; fl 1 (-54)]] in
  succeeds (matrix_product (row_major 0 1 2) (col_major 2 2 2) (row_major 6 1 2)) m (fun _ m' =>
    (exists r, mat_holds m' (row_major 6 1 2) r /\ forall i j, i < 1 -> j < 2 ->
       accurate 2 2 (@zero F64) (a i) (fun k => b k j) (r i j)) /\
    changes_only m m' (mcells (@row_major F64 6 1 2))).
Proof.
  intros. apply (C59_gemm 53 1024 prec53 emax1024 m (row_major 0 1 2) (col_major 2 2 2) (row_major 6 1 2) a b); concrete.
Qed.

(** C = E + A B *)
Theorem C59_gemm_upd : forall prec emax (Hp : Prec_gt_0 prec) (He : Prec_lt_emax prec emax) (m : mem (ieee_ops prec emax Hp He)) A B E C a b e,
  ext0 C = ext0 A -> ext1 A = ext0 B -> ext1 C = ext1 B -> ext0 E = ext0 C -> ext1 E = ext1 C ->
  mat_holds m A a -> mat_holds m B b -> mat_holds m E e -> mwritable C -> allocated m (mcells C) ->
  disjoint (mcells A) (mcells C) -> disjoint (mcells B) (mcells C) -> disjoint_or_aligned_m E C ->
  succeeds (matrix_product_upd A B E C) m (fun _ m' =>
    (exists r, mat_holds m' C r /\ forall i j, i < ext0 C -> j < ext1 C ->
       accurate (ext1 A + 1) (ext1 A) (e i j) (a i) (fun k => b k j) (r i j)) /\
    changes_only m m' (mcells C)).
Proof. exact (@gemm_upd_float). Qed.
Print Assumptions C59_gemm_upd.

(** The same product added to (7, 2^70) in place. *)
Example C59_gemm_upd_case :
  let m : mem F64 := mem_of [fl 1 (-1); fl 3 0; fl 1 (-60); fl 1 0; fl 1 0; fl 1 (-54); fl 7 0; fl 1 70] in
  let a := fm [[fl 1 (-1); fl 3 0]] in let b := fm [[fl 1 (-60); fl 1 0]; [fl 1 0; fl 1 (-54)]] in
  let e := fm [[fl 7 0; fl 1 70]] in let C := row_major 6 1 2 in
  succeeds (matrix_product_upd (row_major 0 1 2) (col_major 2 2 2) C C) m (fun _ m' =>
    (exists r, mat_holds m' C r /\ forall i j, i < 1 -> j < 2 -> accurate 3 2 (e i j) (a i) (fun k => b k j) (r i j)) /\
    changes_only m m' (mcells C)).
Proof.
  intros. apply (C59_gemm_upd 53 1024 prec53 emax1024 m (row_major 0 1 2) (col_major 2 2 2) C C a b e); concrete.
Qed.

(** * C60: the triangular solves are substitution, operation by operation, in any arithmetic *)
(** T x = b *)
Theorem C60_trsv : forall (O : ops) ty (m : mem O) divide A t d B X a b,
  fits ty (ext0 A) -> (ext0 A = 0 -> t = Upper -> ty <> U32) ->
  ext0 A = ext1 A -> vext B = ext0 A -> vext X = ext0 A ->
  mat_holds_on m A (stored t d) a -> vec_holds m B b -> vwritable X -> allocated m (vcells X) ->
  disjoint (mcells_on A (stored t d)) (vcells X) -> disjoint_or_aligned_v B X ->
  succeeds (triangular_matrix_vector_solve_with ty divide A t d B X) m (fun _ m' =>
    (exists f, vec_holds m' X f /\
      forall i, i < ext0 A -> f i = subst_value divide t d (ext0 A) a b f i)
    /\ changes_only m m' (vcells X)).
Proof. exact (@trsv_subst). Qed.
Print Assumptions C60_trsv.

(** Integers with truncating division have no field laws, yet the result is determined: [2 .; 1 3] x = (7, 9) gives
    x_0 = 7 / 2 = 3 and x_1 = (9 - 1 * 3) / 3 = 2. *)
Example C60_trsv_case :
  let m : mem zops := mem_of [2; 77; 1; 3; 7; 9]%Z in let X : vec zops := vec_at 4 2 in
  succeeds (@triangular_matrix_vector_solve_with zops I32 Z.div (row_major 0 2 2) Lower Explicit X X) m (fun _ m' =>
    vec_holds m' X (zv [3; 2]%Z) /\ changes_only m m' (vcells X)).
Proof.
  intros. eapply wp_conseq.
  - apply (@C60_trsv zops I32 m Z.div (row_major 0 2 2) Lower Explicit X X (zm [[2;77];[1;3]]%Z) (zv [7;9]%Z));
      try match goal with |- fits _ _ => split; vm_compute; discriminate | |- _ = _ -> _ = _ -> _ <> _ => discriminate end; concrete.
  - intros _ m' [(f & K1 & K2) K3]; split; auto. eapply vec_holds_ext; [|exact K1].
    assert (f 0 = 3%Z) as E0 by (rewrite (K2 0) by (simpl; lia); reflexivity).
    assert (f 1 = 2%Z) as E1 by (rewrite (K2 1) by (simpl; lia); unfold subst_value, diffs; cbn [sub_lo sub_len seq fold_left]; rewrite E0; reflexivity).
    intros i Hi. destruct i as [|[|i]]; [exact E0|exact E1|simpl in Hi; lia].
Qed.

(** T X = B *)
Theorem C60_trsm_left : forall (O : ops) ty (m : mem O) A t d B X a b,
  fits ty (ext0 A) -> (ext0 A = 0 -> t = Upper -> ty <> U32) ->
  ext0 A = ext1 A -> ext0 B = ext0 A -> ext0 X = ext0 A -> ext1 X = ext1 B ->
  mat_holds_on m A (stored t d) a -> mat_holds m B b -> mwritable X -> allocated m (mcells X) ->
  disjoint (mcells_on A (stored t d)) (mcells X) -> disjoint_or_aligned_m B X ->
  succeeds (triangular_matrix_matrix_left_solve ty A t d B X) m (fun _ m' =>
    (exists x, mat_holds m' X x /\
      forall i j, i < ext0 X -> j < ext1 X ->
        x i j = subst_value div t d (ext0 A) a (fun k => b k j) (fun k => x k j) i)
    /\ changes_only m m' (mcells X)).
Proof. exact (@trsm_left_subst). Qed.
Print Assumptions C60_trsm_left.

Example C60_trsm_left_case :
  let m : mem zops := mem_of [2; 1; 77; 3; 7; 8; 9; 10; 0; 0; 0; 0]%Z in let B : mat zops := row_major 4 2 2 in let X := row_major 8 2 2 in
  let b := zm [[7;8];[9;10]]%Z in
  succeeds (triangular_matrix_matrix_left_solve U64 (row_major 0 2 2) Upper Explicit B X) m (fun _ m' =>
    (exists x, mat_holds m' X x /\ forall i j, i < 2 -> j < 2 ->
        x i j = @subst_value zops Z.div Upper Explicit 2 (zm [[2;1];[77;3]]%Z) (fun k => b k j) (fun k => x k j) i)
    /\ changes_only m m' (mcells X)).
Proof.
  intros. apply (@C60_trsm_left zops U64 m (row_major 0 2 2) Upper Explicit B X (zm [[2;1];[77;3]]%Z) b);
      try match goal with |- fits _ _ => split; vm_compute; discriminate | |- _ = _ -> _ = _ -> _ <> _ => discriminate end; concrete.
Qed.

(** X T = B *)
Theorem C60_trsm_right : forall (O : ops) ty (m : mem O) A t d B X a b,
  (t = Lower -> fits (make_signed ty) (ext0 A)) ->
  ext0 A = ext1 A -> ext1 B = ext0 A -> ext1 X = ext0 A -> ext0 X = ext0 B ->
  mat_holds_on m A (stored t d) a -> mat_holds m B b -> mwritable X -> allocated m (mcells X) ->
  disjoint (mcells_on A (stored t d)) (mcells X) -> disjoint_or_aligned_m B X ->
  succeeds (triangular_matrix_matrix_right_solve ty A t d B X) m (fun _ m' =>
    (exists x, mat_holds m' X x /\
      forall i j, i < ext0 X -> j < ext1 X ->
        x i j = subst_value_r t d (ext0 A) a (fun k => b i k) (fun k => x i k) j)
    /\ changes_only m m' (mcells X)).
Proof. exact (@trsm_right_subst). Qed.
Print Assumptions C60_trsm_right.

Example C60_trsm_right_case :
  let m : mem zops := mem_of [2; 1; 77; 3; 7; 8; 9; 10; 0; 0; 0; 0]%Z in let B : mat zops := row_major 4 2 2 in let X := row_major 8 2 2 in
  let b := zm [[7;8];[9;10]]%Z in
  succeeds (triangular_matrix_matrix_right_solve U64 (row_major 0 2 2) Upper ImplicitUnit B X) m (fun _ m' =>
    (exists x, mat_holds m' X x /\ forall i j, i < 2 -> j < 2 ->
        x i j = @subst_value_r zops Upper ImplicitUnit 2 (zm [[2;1];[77;3]]%Z) (fun k => b i k) (fun k => x i k) j)
    /\ changes_only m m' (mcells X)).
Proof.
  intros. apply (@C60_trsm_right zops U64 m (row_major 0 2 2) Upper ImplicitUnit B X (zm [[2;1];[77;3]]%Z) b);
      try match goal with |- _ = _ -> fits _ _ => intros; split; vm_compute; discriminate end; concrete.
Qed.

(** * C61: residuals of the triangular solves in floating-point arithmetic *)
(** T x = b *)
Theorem C61_trsv : forall prec emax (Hp : Prec_gt_0 prec) (He : Prec_lt_emax prec emax) ty (m : mem (ieee_ops prec emax Hp He)) A t d B X a b,
  fits ty (ext0 A) -> (ext0 A = 0 -> t = Upper -> ty <> U32) ->
  ext0 A = ext1 A -> vext B = ext0 A -> vext X = ext0 A ->
  mat_holds_on m A (stored t d) a -> vec_holds m B b -> vwritable X -> allocated m (vcells X) ->
  disjoint (mcells_on A (stored t d)) (vcells X) -> disjoint_or_aligned_v B X ->
  (d = Explicit -> forall i, i < ext0 A -> is_finite (a i i) = true) ->
  succeeds (triangular_matrix_vector_solve ty A t d B X) m (fun _ m' =>
    (exists f, vec_holds m' X f /\ (all_finite (ext0 A) f -> small_residual t d (ext0 A) a b f))
    /\ changes_only m m' (vcells X)).
Proof. exact (@trsv_float). Qed.
Print Assumptions C61_trsv.

(** [1 .; 1 3] x = (1, 2) in place: x_1 = 1/3 rounded; the stored vector is finite, so the residual bound applies. *)
Example C61_trsv_case :
  let m : mem F64 := mem_of [fl 1 0; fl 77 0; fl 1 0; fl 3 0; fl 1 0; fl 2 0] in let X : vec F64 := vec_at 4 2 in
  let a := fm [[fl 1 0; fl 77 0]; [fl 1 0; fl 3 0]] in
  match run (triangular_matrix_vector_solve I32 (row_major 0 2 2) Lower Explicit X X) m with
  | Ok _ m' => match m' 4, m' 5 with Some v, Some w => is_finite v && is_finite w | _, _ => false end | _ => false end = true /\
  succeeds (triangular_matrix_vector_solve I32 (row_major 0 2 2) Lower Explicit X X) m (fun _ m' =>
    (exists f, vec_holds m' X f /\ (all_finite 2 f -> small_residual Lower Explicit 2 a (fv [fl 1 0; fl 2 0]) f))
    /\ changes_only m m' (vcells X)).
Proof.
  intros. split.
  - vm_compute; reflexivity.
  - apply (C61_trsv 53 1024 prec53 emax1024 I32 m (row_major 0 2 2) Lower Explicit X X a);
      try match goal with |- fits _ _ => split; vm_compute; discriminate | |- _ = _ -> _ = _ -> _ <> _ => discriminate end;
      try match goal with |- _ = Explicit -> forall i, _ => intros _ i Hi; destruct i as [|[|i]]; [vm_compute; reflexivity|vm_compute; reflexivity|simpl in Hi; lia] end; concrete.
Qed.

(** T X = B *)
Theorem C61_trsm_left : forall prec emax (Hp : Prec_gt_0 prec) (He : Prec_lt_emax prec emax) ty (m : mem (ieee_ops prec emax Hp He)) A t d B X a b,
  fits ty (ext0 A) -> (ext0 A = 0 -> t = Upper -> ty <> U32) ->
  ext0 A = ext1 A -> ext0 B = ext0 A -> ext0 X = ext0 A -> ext1 X = ext1 B ->
  mat_holds_on m A (stored t d) a -> mat_holds m B b -> mwritable X -> allocated m (mcells X) ->
  disjoint (mcells_on A (stored t d)) (mcells X) -> disjoint_or_aligned_m B X ->
  (d = Explicit -> forall i, i < ext0 A -> is_finite (a i i) = true) ->
  succeeds (triangular_matrix_matrix_left_solve ty A t d B X) m (fun _ m' =>
    (exists x, mat_holds m' X x /\ forall j, j < ext1 X -> all_finite (ext0 A) (fun i => x i j) ->
       small_residual t d (ext0 A) a (fun i => b i j) (fun i => x i j))
    /\ changes_only m m' (mcells X)).
Proof. exact (@trsm_left_float). Qed.
Print Assumptions C61_trsm_left.

Example C61_trsm_left_case :
  let m : mem F64 := mem_of [fl 1 0; fl 77 0; fl 1 0; fl 3 0; fl 1 0; fl 2 0] in let X : mat F64 := col_major 4 2 1 in
  let a := fm [[fl 1 0; fl 77 0]; [fl 1 0; fl 3 0]] in let b := fm [[fl 1 0]; [fl 2 0]] in
  succeeds (triangular_matrix_matrix_left_solve U32 (row_major 0 2 2) Upper Explicit X X) m (fun _ m' =>
    (exists x, mat_holds m' X x /\ forall j, j < 1 -> all_finite 2 (fun i => x i j) ->
       small_residual Upper Explicit 2 a (fun i => b i j) (fun i => x i j))
    /\ changes_only m m' (mcells X)).
Proof.
  intros. apply (C61_trsm_left 53 1024 prec53 emax1024 U32 m (row_major 0 2 2) Upper Explicit X X a b);
      try match goal with |- fits _ _ => split; vm_compute; discriminate | |- _ = _ -> _ = _ -> _ <> _ => discriminate end;
      try match goal with |- _ = Explicit -> forall i, _ => intros _ i Hi; destruct i as [|[|i]]; [vm_compute; reflexivity|vm_compute; reflexivity|simpl in Hi; lia] end; concrete.
Qed.

(** X T = B *)
Theorem C61_trsm_right : forall prec emax (Hp : Prec_gt_0 prec) (He : Prec_lt_emax prec emax) ty (m : mem (ieee_ops prec emax Hp He)) A t d B X a b,
  (t = Lower -> fits (make_signed ty) (ext0 A)) ->
  ext0 A = ext1 A -> ext1 B = ext0 A -> ext1 X = ext0 A -> ext0 X = ext0 B ->
  mat_holds_on m A (stored t d) a -> mat_holds m B b -> mwritable X -> allocated m (mcells X) ->
  disjoint (mcells_on A (stored t d)) (mcells X) -> disjoint_or_aligned_m B X ->
  (d = Explicit -> forall i, i < ext0 A -> is_finite (a i i) = true) ->
  succeeds (triangular_matrix_matrix_right_solve ty A t d B X) m (fun _ m' =>
    (exists x, mat_holds m' X x /\ forall i, i < ext0 X -> all_finite (ext0 A) (x i) ->
       small_residual_r t d (ext0 A) a (b i) (x i))
    /\ changes_only m m' (mcells X)).
Proof. exact (@trsm_right_float). Qed.
Print Assumptions C61_trsm_right.

Example C61_trsm_right_case :
  let m : mem F64 := mem_of [fl 1 0; fl 77 0; fl 1 0; fl 3 0; fl 1 0; fl 2 0] in let X : mat F64 := row_major 4 1 2 in
  let a := fm [[fl 1 0; fl 77 0]; [fl 1 0; fl 3 0]] in let b := fm [[fl 1 0; fl 2 0]] in
  succeeds (triangular_matrix_matrix_right_solve I64 (row_major 0 2 2) Lower Explicit X X) m (fun _ m' =>
    (exists x, mat_holds m' X x /\ forall i, i < 1 -> all_finite 2 (x i) ->
       small_residual_r Lower Explicit 2 a (b i) (x i))
    /\ changes_only m m' (mcells X)).
Proof.
  intros. apply (C61_trsm_right 53 1024 prec53 emax1024 I64 m (row_major 0 2 2) Lower Explicit X X a b);
      try match goal with |- _ = _ -> fits _ _ => intros; split; vm_compute; discriminate end;
      try match goal with |- _ = Explicit -> forall i, _ => intros _ i Hi; destruct i as [|[|i]]; [vm_compute; reflexivity|vm_compute; reflexivity|simpl in Hi; lia] end; concrete.
Qed.

(** C71 (continued): triangular solves with complex numbers in IEEE arithmetic, for every binary format. *)
From Coq Require Import List Arith ZArith Reals Lia Lra Bool.
From Flocq Require Import Core.Core IEEE754.BinarySingleNaN.
From Verif Require Import Mem Scalar View Spec SpecR SpecF SpecSub SpecC Idx Norm Ieee IeeeC Blas1 Blas2 Blas3 Wp PfComplexSub Inst PropFloat PropComplex.
Import ListNotations.
Local Open Scope nat_scope.
Local Ltac solved := try match goal with |- fits _ _ => split; vm_compute; discriminate | |- _ = _ -> fits _ _ => intros; split; vm_compute; discriminate
    | |- _ = _ -> _ = _ -> _ <> _ => discriminate end; concrete.

(** T x = b *)
Theorem C71_trsv : forall prec emax (Hp : Prec_gt_0 prec) (He : Prec_lt_emax prec emax) recover cdiv,
  (forall x y, ~ cfin (recover x y)) -> forall ty (m : mem (ieee_c prec emax Hp He recover cdiv)) A t d B X a b,
  fits ty (ext0 A) -> (ext0 A = 0 -> t = Upper -> ty <> U32) ->
  ext0 A = ext1 A -> vext B = ext0 A -> vext X = ext0 A ->
  mat_holds_on m A (stored t d) a -> vec_holds m B b -> vwritable X -> allocated m (vcells X) ->
  disjoint (mcells_on A (stored t d)) (vcells X) -> disjoint_or_aligned_v B X ->
  succeeds (triangular_matrix_vector_solve ty A t d B X) m (fun _ m' =>
    (exists x, vec_holds m' X x /\ forall i, i < ext0 A -> csolves_row cdiv t d (ext0 A) a b x i)
    /\ changes_only m m' (vcells X)).
Proof. exact (@trsv_complex). Qed.
Print Assumptions C71_trsv.

(** [1 .; 1 + 2^-53 i, 1] x = (1 + 2^-54 i, i) in place, with an implicit unit diagonal: x_1 = i - (1 + 2^-53 i)(1 + 2^-54 i),
    computed as -1 + (1 - (2^-53 + 2^-54)) i rounded. *)
Example C71_trsv_case :
  let m : mem C64 := mem_of [cl (fl 77 0) (fl 77 0); cl (fl 77 0) (fl 77 0); cl (fl 1 0) (fl 1 (-53)); cl (fl 77 0) (fl 77 0); cl (fl 1 0) (fl 1 (-54)); cl (fl 0 0) (fl 1 0)] in
  let A : mat C64 := row_major 0 2 2 in let X : vec C64 := vec_at 4 2 in
  let a := cm [[cl (fl 77 0) (fl 77 0); cl (fl 77 0) (fl 77 0)]; [cl (fl 1 0) (fl 1 (-53)); cl (fl 77 0) (fl 77 0)]] in
  let b := cv [cl (fl 1 0) (fl 1 (-54)); cl (fl 0 0) (fl 1 0)] in
  match run (triangular_matrix_vector_solve I32 A Lower ImplicitUnit X X) m with
  | Ok _ m' => match m' 5 with Some v => (B2SF (fst v), B2SF (snd v)) = (B2SF (fl (-1) 0), B2SF (fl 4503599627370495 (-52))) | None => False end
  | Err _ _ => False end /\
  succeeds (triangular_matrix_vector_solve I32 A Lower ImplicitUnit X X) m (fun _ m' =>
    (exists x, vec_holds m' X x /\ forall i, i < 2 -> csolves_row nan2 Lower ImplicitUnit 2 a b x i)
    /\ changes_only m m' (vcells X)).
Proof.
  intros m A X a b. split.
  - vm_compute. reflexivity.
  - apply (C71_trsv 53 1024 prec53 emax1024 nan2 nan2 nan2_not_finite I32 m A Lower ImplicitUnit X X a b); unfold m, A, X, a, b; solved.
Qed.

(** T X = B *)
Theorem C71_trsm_left : forall prec emax (Hp : Prec_gt_0 prec) (He : Prec_lt_emax prec emax) recover cdiv,
  (forall x y, ~ cfin (recover x y)) -> forall ty (m : mem (ieee_c prec emax Hp He recover cdiv)) A t d B X a b,
  fits ty (ext0 A) -> (ext0 A = 0 -> t = Upper -> ty <> U32) ->
  ext0 A = ext1 A -> ext0 B = ext0 A -> ext0 X = ext0 A -> ext1 X = ext1 B ->
  mat_holds_on m A (stored t d) a -> mat_holds m B b -> mwritable X -> allocated m (mcells X) ->
  disjoint (mcells_on A (stored t d)) (mcells X) -> disjoint_or_aligned_m B X ->
  succeeds (triangular_matrix_matrix_left_solve ty A t d B X) m (fun _ m' =>
    (exists x, mat_holds m' X x /\ forall i j, i < ext0 X -> j < ext1 X ->
       csolves_row cdiv t d (ext0 A) a (fun k => b k j) (fun k => x k j) i)
    /\ changes_only m m' (mcells X)).
Proof. exact (@trsm_left_complex). Qed.
Print Assumptions C71_trsm_left.

Example C71_trsm_left_case :
  let m : mem C64 := mem_of [cl (fl 3 0) (fl 7 0); cl (fl 5 2) (fl 1 (-1)); cl (fl 77 0) (fl 77 0); cl (fl 1 0) (fl 1 0); cl (fl 1 0) (fl 1 (-54)); cl (fl 0 0) (fl 1 0)] in
  let A : mat C64 := row_major 0 2 2 in let X : mat C64 := col_major 4 2 1 in
  let a := cm [[cl (fl 3 0) (fl 7 0); cl (fl 5 2) (fl 1 (-1))]; [cl (fl 77 0) (fl 77 0); cl (fl 1 0) (fl 1 0)]] in
  let b := cm [[cl (fl 1 0) (fl 1 (-54))]; [cl (fl 0 0) (fl 1 0)]] in
  succeeds (triangular_matrix_matrix_left_solve U64 A Upper ImplicitUnit X X) m (fun _ m' =>
    (exists x, mat_holds m' X x /\ forall i j, i < 2 -> j < 1 ->
       csolves_row nan2 Upper ImplicitUnit 2 a (fun k => b k j) (fun k => x k j) i)
    /\ changes_only m m' (mcells X)).
Proof.
  intros m A X a b.
  apply (C71_trsm_left 53 1024 prec53 emax1024 nan2 nan2 nan2_not_finite U64 m A Upper ImplicitUnit X X a b); unfold m, A, X, a, b; solved.
Qed.

(** X T = B *)
Theorem C71_trsm_right : forall prec emax (Hp : Prec_gt_0 prec) (He : Prec_lt_emax prec emax) recover cdiv,
  (forall x y, ~ cfin (recover x y)) -> forall ty (m : mem (ieee_c prec emax Hp He recover cdiv)) A t d B X a b,
  (t = Lower -> fits (make_signed ty) (ext0 A)) ->
  ext0 A = ext1 A -> ext1 B = ext0 A -> ext1 X = ext0 A -> ext0 X = ext0 B ->
  mat_holds_on m A (stored t d) a -> mat_holds m B b -> mwritable X -> allocated m (mcells X) ->
  disjoint (mcells_on A (stored t d)) (mcells X) -> disjoint_or_aligned_m B X ->
  succeeds (triangular_matrix_matrix_right_solve ty A t d B X) m (fun _ m' =>
    (exists x, mat_holds m' X x /\ forall i j, i < ext0 X -> j < ext1 X ->
       csolves_col cdiv t d (ext0 A) a (fun k => b i k) (fun k => x i k) j)
    /\ changes_only m m' (mcells X)).
Proof. exact (@trsm_right_complex). Qed.
Print Assumptions C71_trsm_right.

Example C71_trsm_right_case :
  let m : mem C64 := mem_of [cl (fl 3 0) (fl 7 0); cl (fl 77 0) (fl 77 0); cl (fl 5 2) (fl 1 (-1)); cl (fl 1 0) (fl 1 0); cl (fl 1 0) (fl 1 (-54)); cl (fl 0 0) (fl 1 0)] in
  let A : mat C64 := row_major 0 2 2 in let X : mat C64 := row_major 4 1 2 in
  let a := cm [[cl (fl 3 0) (fl 7 0); cl (fl 77 0) (fl 77 0)]; [cl (fl 5 2) (fl 1 (-1)); cl (fl 1 0) (fl 1 0)]] in
  let b := cm [[cl (fl 1 0) (fl 1 (-54)); cl (fl 0 0) (fl 1 0)]] in
  succeeds (triangular_matrix_matrix_right_solve U64 A Lower ImplicitUnit X X) m (fun _ m' =>
    (exists x, mat_holds m' X x /\ forall i j, i < 1 -> j < 2 ->
       csolves_col nan2 Lower ImplicitUnit 2 a (fun k => b i k) (fun k => x i k) j)
    /\ changes_only m m' (mcells X)).
Proof.
  intros m A X a b.
  apply (C71_trsm_right 53 1024 prec53 emax1024 nan2 nan2 nan2_not_finite U64 m A Lower ImplicitUnit X X a b); unfold m, A, X, a, b; solved.
Qed.

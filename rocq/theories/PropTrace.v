(** C99: triangular solves have a small residual whatever multiply-subtractions the compiler fuses, place by place. *)
From Coq Require Import List Arith ZArith Reals Lia Lra Bool.
From Flocq Require Import Core.Core IEEE754.BinarySingleNaN.
From Verif Require Import Mem Scalar View Spec SpecR SpecF SpecRel Idx Norm Ieee Blas1 Blas2 Blas3 Wp Fma Trace SpecTrace PfTrace PfTrace2 Inst PropFloat.
Import ListNotations.
Local Open Scope nat_scope.

(** [fuse] decides for every subtraction, from the way its operands were computed, whether the product is rounded.  The
    elements of B are stored numbers, not products still pending; those of A may be. *)
Theorem C99_trsv : forall prec emax (Hp : Prec_gt_0 prec) (He : Prec_lt_emax prec emax) fuse
    ty (m : mem (traced_ops prec emax Hp He fuse)) A t d B X (a : nat -> nat -> traced prec emax) (b : nat -> traced prec emax),
  fits ty (ext0 A) -> (ext0 A = 0 -> t = Upper -> ty <> U32) ->
  ext0 A = ext1 A -> vext B = ext0 A -> vext X = ext0 A ->
  mat_holds_on m A (stored t d) a -> vec_holds m B b -> vwritable X -> allocated m (vcells X) ->
  disjoint (mcells_on A (stored t d)) (vcells X) -> disjoint_or_aligned_v B X ->
  (forall i, i < ext0 A -> product (b i) = None) ->
  (d = Explicit -> forall i, i < ext0 A -> is_finite (value (a i i)) = true) ->
  succeeds (triangular_matrix_vector_solve ty A t d B X) m (fun _ m' =>
    (exists f : nat -> traced prec emax, vec_holds m' X f /\ (all_finite (ext0 A) (fun i => value (f i)) ->
       small_residual t d (ext0 A) (fun i j => value (a i j)) (fun i => value (b i)) (fun i => value (f i))))
    /\ changes_only m m' (vcells X)).
Proof. exact trsv_traced. Qed.
Print Assumptions C99_trsv.

Theorem C99_trsm_left : forall prec emax (Hp : Prec_gt_0 prec) (He : Prec_lt_emax prec emax) fuse
    ty (m : mem (traced_ops prec emax Hp He fuse)) A t d B X (a b : nat -> nat -> traced prec emax),
  fits ty (ext0 A) -> (ext0 A = 0 -> t = Upper -> ty <> U32) ->
  ext0 A = ext1 A -> ext0 B = ext0 A -> ext0 X = ext0 A -> ext1 X = ext1 B ->
  mat_holds_on m A (stored t d) a -> mat_holds m B b -> mwritable X -> allocated m (mcells X) ->
  disjoint (mcells_on A (stored t d)) (mcells X) -> disjoint_or_aligned_m B X ->
  (forall i j, i < ext0 A -> j < ext1 B -> product (b i j) = None) ->
  (d = Explicit -> forall i, i < ext0 A -> is_finite (value (a i i)) = true) ->
  succeeds (triangular_matrix_matrix_left_solve ty A t d B X) m (fun _ m' =>
    (exists x : nat -> nat -> traced prec emax, mat_holds m' X x /\ forall j, j < ext1 X -> all_finite (ext0 A) (fun i => value (x i j)) ->
       small_residual t d (ext0 A) (fun i j => value (a i j)) (fun i => value (b i j)) (fun i => value (x i j)))
    /\ changes_only m m' (mcells X)).
Proof. exact trsm_left_traced. Qed.
Print Assumptions C99_trsm_left.

Theorem C99_trsm_right : forall prec emax (Hp : Prec_gt_0 prec) (He : Prec_lt_emax prec emax) fuse
    ty (m : mem (traced_ops prec emax Hp He fuse)) A t d B X (a b : nat -> nat -> traced prec emax),
  (t = Lower -> fits (make_signed ty) (ext0 A)) ->
  ext0 A = ext1 A -> ext1 B = ext0 A -> ext1 X = ext0 A -> ext0 X = ext0 B ->
  mat_holds_on m A (stored t d) a -> mat_holds m B b -> mwritable X -> allocated m (mcells X) ->
  disjoint (mcells_on A (stored t d)) (mcells X) -> disjoint_or_aligned_m B X ->
  (forall i j, i < ext0 B -> j < ext0 A -> product (b i j) = None) ->
  (d = Explicit -> forall i, i < ext0 A -> is_finite (value (a i i)) = true) ->
  succeeds (triangular_matrix_matrix_right_solve ty A t d B X) m (fun _ m' =>
    (exists x : nat -> nat -> traced prec emax, mat_holds m' X x /\ forall i, i < ext0 X -> all_finite (ext0 A) (fun j => value (x i j)) ->
       small_residual_r t d (ext0 A) (fun i j => value (a i j)) (fun j => value (b i j)) (fun j => value (x i j)))
    /\ changes_only m m' (mcells X)).
Proof. exact trsm_right_traced. Qed.
Print Assumptions C99_trsm_right.

(** Contraction chosen place by place lies within the sets of C91, so by C86 the bounds proved there hold for it too. *)
Theorem C99_within_C91 : forall prec emax (Hp : Prec_gt_0 prec) (He : Prec_lt_emax prec emax) fuse,
  respects (O1 := traced_ops prec emax Hp He fuse) (O2 := fma_ops prec emax Hp He) may_be_traced /\
  respects_op (O1 := traced_ops prec emax Hp He fuse) (O2 := fma_ops prec emax Hp He) may_be_traced
    (@div (traced_ops prec emax Hp He fuse)) (@div (fma_ops prec emax Hp He)).
Proof. exact traced_respects. Qed.
Print Assumptions C99_within_C91.

(** Rows (1, .), (1 + 2^-30, 3) and (1 + 2^-30, 1 + 2^-29): the second unknown is (1 + 2^-29 - (1 + 2^-30)^2) / 3, which is 0
    when the product is rounded and -2^-60/3 rounded when it is fused. *)
Section Case.
Variable fuse : opcode -> hist -> hist -> bool * bool.
Notation T := (traced_ops 53 1024 prec53 emax1024 fuse).
Definition q99 : binary_float 53 1024 := fl 1073741825 (-30). (* test data *)
Definition t99 : mem T := mem_of [input 0 (fl 1 0); input 1 (fl 77 0); input 2 q99; input 3 (fl 3 0); input 4 q99; input 5 (fl 536870913 (-29))]. (* test data *)
Definition a99 : nat -> nat -> T := @melt T [[input 0 (fl 1 0); input 1 (fl 77 0)]; [input 2 q99; input 3 (fl 3 0)]]. (* test data *)
Definition b99 : nat -> T := @velt T [input 4 q99; input 5 (fl 536870913 (-29))]. (* test data *)
Example C99_case :
  let X : vec T := vec_at 4 2 in
  succeeds (triangular_matrix_vector_solve U64 (row_major 0 2 2) Lower Explicit X X) t99 (fun _ m' =>
    (exists f, vec_holds m' X f /\ (all_finite 2 (fun i => value (f i : traced 53 1024)) ->
       small_residual Lower Explicit 2 (fun i j => value (a99 i j : traced 53 1024)) (fun i => value (b99 i : traced 53 1024)) (fun i => value (f i : traced 53 1024))))
    /\ changes_only t99 m' (vcells X)).
Proof.
  intros X. apply (C99_trsv 53 1024 prec53 emax1024 fuse U64 t99 (row_major 0 2 2) Lower Explicit X X a99 b99);
    try match goal with |- fits _ _ => split; vm_compute; discriminate end; try discriminate; unfold t99, a99, b99; concrete.
  - intros [|[|i]] Hi; simpl in *; try lia; reflexivity.
  - intros _ [|[|i]] Hi; simpl in *; try lia; vm_compute; reflexivity.
Qed.
End Case.
Example C99_choice_matters :
  let second fuse := match run (triangular_matrix_vector_solve U64 (row_major 0 2 2) Lower Explicit (vec_at 4 2) (vec_at 4 2)) (t99 fuse) with
    | Ok _ m' => option_map (fun v : traced 53 1024 => B2SF (value v)) (m' 5) | Err _ _ => None end in
  second (fun _ _ _ => (false, false)) = Some (B2SF (fl 0 0)) /\
  second (fun _ l _ => match l with Input 5 => (false, true) | _ => (false, false) end) = Some (B2SF (Bdiv mode_NE (fl (-1) (-60)) (fl 3 0))).
Proof. split; vm_compute; reflexivity. Qed.

(** The choices are those stated: if every sum takes the product on its right unrounded, dot is a chain of fused multiply-adds; if none
    does, products and sums are rounded separately. *)
Theorem C99_dot_all_fused : forall prec emax (Hp : Prec_gt_0 prec) (He : Prec_lt_emax prec emax) fuse (m : mem (traced_ops prec emax Hp He fuse)) x y (f g : nat -> traced prec emax) init,
  (forall h k, fuse OAdd h k = (false, true)) ->
  vext x = vext y -> vec_holds m x f -> vec_holds m y g ->
  succeeds (dot x y (init : traced_ops prec emax Hp He fuse)) m (fun r m' =>
    value r = fold_left (fun s k => Bfma mode_NE (value (f k)) (value (g k)) s) (seq 0 (vext x)) (value init) /\ m' = m).
Proof. exact dot_all_fused. Qed.
Print Assumptions C99_dot_all_fused.
Theorem C99_dot_none_fused : forall prec emax (Hp : Prec_gt_0 prec) (He : Prec_lt_emax prec emax) fuse (m : mem (traced_ops prec emax Hp He fuse)) x y (f g : nat -> traced prec emax) init,
  (forall h k, fuse OAdd h k = (false, false)) ->
  vext x = vext y -> vec_holds m x f -> vec_holds m y g ->
  succeeds (dot x y (init : traced_ops prec emax Hp He fuse)) m (fun r m' =>
    value r = fold_left (fun s k => Bplus mode_NE s (Bmult mode_NE (value (f k)) (value (g k)))) (seq 0 (vext x)) (value init) /\ m' = m).
Proof. exact dot_none_fused. Qed.
Print Assumptions C99_dot_none_fused.
(** (1+2^-30)^2 - (1+2^-29) is 2^-60 with the product fused, 0 without. *)
Example C99_dot_case :
  let res fuse := match run (dot (vec_at 2 1) (vec_at 4 1) (input 9 (fl (-536870913) (-29)) : traced_ops 53 1024 prec53 emax1024 fuse)) (t99 fuse) with
    | Ok r _ => Some (B2SF (value (r : traced 53 1024))) | Err _ _ => None end in
  res (fun _ _ _ => (false, true)) = Some (B2SF (fl 1 (-60))) /\ res (fun _ _ _ => (false, false)) = Some (B2SF (fl 0 0)).
Proof. split; vm_compute; reflexivity. Qed.

(** C80: in which type the triangular solves accumulate when the element types differ. *)
From Coq Require Import List Arith ZArith Lia Bool.
From Flocq Require Import IEEE754.BinarySingleNaN.
From Verif Require Import Mem Scalar View Spec SpecSub SpecT Idx Ieee Proxy Typed PfTrsm PfTyped Inst.
Import ListNotations.

(** The vector solve subtracts in the type of B - A * X and converts each unknown once, to the element type of X. *)
Theorem C80_trsv : forall (L : cpp) z o tA tB tX ty (m : mem (typed_ops L z o)) A t d B X a b,
  fits ty (ext0 A) -> (ext0 A = 0 -> t = Upper -> ty <> U32) ->
  ext0 A = ext1 A -> vext B = ext0 A -> vext X = ext0 A ->
  mat_holds_on m A (stored t d) a -> vec_holds m B b -> vwritable X -> allocated m (vcells X) ->
  disjoint (mcells_on A (stored t d)) (vcells X) -> disjoint_or_aligned_v B X ->
  succeeds (typed_trsv L z o tA tB tX ty A t d B X) m (fun _ m' =>
    (exists f, vec_holds m' X f /\
      forall i, i < ext0 A -> f i = typed_subst L (difference_type L tA tB tX) tX t d (ext0 A) a b f i)
    /\ changes_only m m' (vcells X)).
Proof. exact typed_trsv_ok. Qed.
Print Assumptions C80_trsv.

(** So does the right matrix solve, row by row. *)
Theorem C80_trsm_right : forall (L : cpp) z o tA tB tX ty (m : mem (typed_ops L z o)) A t d B X a b,
  (t = Lower -> fits (make_signed ty) (ext0 A)) ->
  ext0 A = ext1 A -> ext1 B = ext0 A -> ext1 X = ext0 A -> ext0 X = ext0 B ->
  mat_holds_on m A (stored t d) a -> mat_holds m B b -> mwritable X -> allocated m (mcells X) ->
  disjoint (mcells_on A (stored t d)) (mcells X) -> disjoint_or_aligned_m B X ->
  succeeds (typed_trsm_right L z o tA tB tX ty A t d B X) m (fun _ m' =>
    (exists x, mat_holds m' X x /\
      forall i j, i < ext0 X -> j < ext1 X ->
        x i j = typed_subst_r L (difference_type L tA tB tX) tX t d (ext0 A) a (fun k => b i k) (fun k => x i k) j)
    /\ changes_only m m' (mcells X)).
Proof. exact typed_trsm_right_ok. Qed.
Print Assumptions C80_trsm_right.

(** The left matrix solve does so for upper triangles; for lower triangles every intermediate difference is converted to
    the element type of X. *)
Theorem C80_trsm_left : forall (L : cpp) z o tA tB tX ty (m : mem (typed_ops L z o)) A t d B X a b,
  fits ty (ext0 A) -> (ext0 A = 0 -> t = Upper -> ty <> U32) ->
  ext0 A = ext1 A -> ext0 B = ext0 A -> ext0 X = ext0 A -> ext1 X = ext1 B ->
  mat_holds_on m A (stored t d) a -> mat_holds m B b -> mwritable X -> allocated m (mcells X) ->
  disjoint (mcells_on A (stored t d)) (mcells X) -> disjoint_or_aligned_m B X ->
  succeeds (typed_trsm_left L z o tA tB tX ty A t d B X) m (fun _ m' =>
    (exists x, mat_holds m' X x /\
      forall i j, i < ext0 X -> j < ext1 X ->
        x i j = typed_subst L (match t with Lower => tX | Upper => difference_type L tA tB tX end) tX t d (ext0 A) a
                  (fun k => b k j) (fun k => x k j) i)
    /\ changes_only m m' (mcells X)).
Proof. exact typed_trsm_left_ok. Qed.
Print Assumptions C80_trsm_left.

(** A column of the left matrix solve is what the vector solve gives for that column.  Partial: upper triangles, or X of
    the type of B - A * X; for lower triangles and other types it is false (C80_left_lower_refuted). *)
Theorem C80_left_is_trsv_partial : forall (L : cpp) z o tA tB tX ty (m : mem (typed_ops L z o)) A t d B X Y a b,
  t = Upper \/ tX = difference_type L tA tB tX ->
  fits ty (ext0 A) -> (ext0 A = 0 -> t = Upper -> ty <> U32) ->
  ext0 A = ext1 A -> ext0 B = ext0 A -> ext0 X = ext0 A -> ext1 X = ext1 B -> vext Y = ext0 A ->
  mat_holds_on m A (stored t d) a -> mat_holds m B b -> mwritable X -> allocated m (mcells X) ->
  disjoint (mcells_on A (stored t d)) (mcells X) -> disjoint_or_aligned_m B X ->
  vwritable Y -> allocated m (vcells Y) -> disjoint (mcells_on A (stored t d)) (vcells Y) ->
  disjoint (mcells B) (vcells Y) ->
  succeeds (typed_trsm_left L z o tA tB tX ty A t d B X) m (fun _ m1 =>
    exists x, mat_holds m1 X x /\
    forall j, j < ext1 X ->
    succeeds (typed_trsv L z o tA tB tX ty A t d (col B j) Y) m (fun _ m2 => vec_holds m2 Y (fun i => x i j))).
Proof. exact typed_left_is_trsv. Qed.
Print Assumptions C80_left_is_trsv_partial.

(** float X, double A and B. *)
Definition zf : cval floats := VFloat (B754_zero false).
Definition FDO : ops := typed_ops floats zf zf.
Definition db (m e : Z) : fd := VDbl (binary_normalize 53 1024 prec53 emax1024 mode_NE m e false).
Definition ft (m e : Z) : fd := VFloat (binary_normalize 24 128 prec24 emax128 mode_NE m e false).
(** A in cells 0-3 (both triangles), B in 4-5, X in 6-7, Y in 8-9: A x = (1, 1 + 2^-30). *)
Definition fd_mem : mem FDO := mem_of [db 1 0; db 1 0; db 1 0; db 4 0; db 1 0; db (1073741824 + 1) (-30); zf; zf; zf; zf].
Definition fA : mat FDO := row_major 0 2 2.
Definition fB : mat FDO := row_major 4 2 1.
Definition fX : mat FDO := row_major 6 2 1.
Definition fY : vec FDO := vec_at 8 2.
Definition cell_is (r : res FDO unit) (c : nat) (v : fd) : bool :=
  match r with Ok _ m => match m c with Some w => ceq floats w v | None => false end | Err _ _ => false end.

(** L x = (1, 1 + 2^-30) with L = (1, 0; 1, 4) has the float solution (1, 2^-32).  The vector solve finds it; the second unknown
    of the matrix solve is zero. *)
Theorem C80_left_lower_refuted : exists (m : mem FDO) A B X Y a b,
  fits I64 (ext0 A) /\ ext0 A = ext1 A /\ ext0 B = ext0 A /\ ext0 X = ext0 A /\ ext1 X = ext1 B /\ vext Y = ext0 A /\
  mat_holds_on m A (stored Lower Explicit) a /\ mat_holds m B b /\ mwritable X /\ allocated m (mcells X) /\
  disjoint (mcells_on A (stored Lower Explicit)) (mcells X) /\ disjoint_or_aligned_m B X /\
  vwritable Y /\ allocated m (vcells Y) /\ disjoint (mcells_on A (stored Lower Explicit)) (vcells Y) /\
  disjoint (mcells B) (vcells Y) /\
  cell_is (run (typed_trsv floats zf zf TDbl TDbl TFloat I64 A Lower Explicit (col B 0) Y) m) (vaddr Y 1) (ft 1 (-32)) = true /\
  cell_is (run (typed_trsm_left floats zf zf TDbl TDbl TFloat I64 A Lower Explicit B X) m) (maddr X 1 0) (ft 0 0) = true /\
  ceq floats (ft 1 (-32)) (ft 0 0) = false.
Proof.
  exists fd_mem, fA, fB, fX, fY,
    (@melt FDO [[db 1 0; db 1 0]; [db 1 0; db 4 0]]), (@melt FDO [[db 1 0]; [db (1073741824 + 1) (-30)]]).
  split; [vm_compute; intuition congruence|].
  do 5 (split; [reflexivity|]). do 2 (split; [concrete|]). do 2 (split; [concrete|]).
  split; [concrete|]. split; [left; concrete|]. do 4 (split; [concrete|]).
  split; [vm_compute; reflexivity|]. split; vm_compute; reflexivity.
Qed.
Print Assumptions C80_left_lower_refuted.

(** The upper triangle (1, 1; 0, 4) of the same matrix: both solves find (1 - 2^-2 - 2^-32 rounded, 2^-2 + 2^-32 rounded). *)
Example C80_case :
  succeeds (typed_trsm_left floats zf zf TDbl TDbl TFloat I64 fA Upper Explicit fB fX) fd_mem (fun _ m1 =>
    exists x, mat_holds m1 fX x /\
    forall j, j < 1 ->
    succeeds (typed_trsv floats zf zf TDbl TDbl TFloat I64 fA Upper Explicit (col fB j) fY) fd_mem (fun _ m2 => vec_holds m2 fY (fun i => x i j))) /\
  cell_is (run (typed_trsm_left floats zf zf TDbl TDbl TFloat I64 fA Upper Explicit fB fX) fd_mem) 7 (ft 1 (-2)) = true /\
  cell_is (run (typed_trsm_left floats zf zf TDbl TDbl TFloat I64 fA Upper Explicit fB fX) fd_mem) 6 (ft 3 (-2)) = true /\
  cell_is (run (typed_trsm_right floats zf zf TDbl TDbl TFloat I64 fA Lower Explicit (row_major 4 1 2) (row_major 6 1 2)) fd_mem) 6 (ft 3 (-2)) = true.
Proof.
  split.
  - apply (C80_left_is_trsv_partial floats zf zf TDbl TDbl TFloat I64 fd_mem fA Upper Explicit fB fX fY
      (@melt FDO [[db 1 0; db 1 0]; [db 1 0; db 4 0]]) (@melt FDO [[db 1 0]; [db (1073741824 + 1) (-30)]])); auto;
      try concrete; try (vm_compute; intuition congruence); try reflexivity; left; concrete.
  - vm_compute. repeat split.
Qed.

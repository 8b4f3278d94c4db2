(** Vocabulary for C100: matrices over a commutative ring with conjugation. *)
From mathcomp Require Import all_ssreflect all_algebra.
From Verif Require Import Mem Scalar View Spec SpecMx.
Set Implicit Arguments.
Local Open Scope ring_scope.
Import GRing.Theory.

(** Conjugation: a ring morphism that is its own inverse, with a real part that is self-conjugate and leaves
    self-conjugate elements alone. *)
Record conjugation (R : comUnitRingType) := Conjugation {
  cj :> {rmorphism R -> R}; cj_twice : forall x, cj (cj x) = x;
  real_part : R -> R; real_part_self : forall x, cj (real_part x) = real_part x;
  real_part_fix : forall x, cj x = x -> real_part x = x }.
(** Elements: the ring with [cj] as conj and [real_part] as real (conj_if_needed.hpp:71-94, real_if_needed.hpp:63-88). *)
Definition conj_ring_ops (R : comUnitRingType) (K : conjugation R) : ops :=
  @Ops R 0 1 (fun x y => x + y) (fun x y => x - y) (fun x y => x * y) (fun x y => x / y) (cj K) (real_part K).

Section SpecMxH.
Variables (R : comUnitRingType) (K : conjugation R).
Notation O := (conj_ring_ops K).

(** As in SpecMx.v: the view holds the column vector or the selected elements of the matrix. *)
Definition has_cv (m : mem O) (x : vec O) {n} (v : 'cV[R]_n) : Prop :=
  vext x = n /\ forall i : 'I_n, exists c, m (vaddr x i) = Some c /\ acc_read (vacc x) c = v i 0.
(** Its elements at the indices in [P] are those of the matrix (not in code). *)
Definition has_mx_on (m : mem O) (A : mat O) (P : nat -> nat -> Prop) {p q} (M : 'M[R]_(p, q)) : Prop :=
  ext0 A = p /\ ext1 A = q /\
  forall (i : 'I_p) (j : 'I_q), P i j -> exists c, m (maddr A i j) = Some c /\ acc_read (macc A) c = M i j.
(** All its elements are those of the matrix (not in code). *)
Definition has_mx m A {p q} (M : 'M[R]_(p, q)) : Prop := has_mx_on m A all2 M.

(** The conjugate transpose, and matrices equal to it. *)
Definition adjoint {p q} (M : 'M[R]_(p, q)) : 'M[R]_(q, p) := map_mx K M^T.
(** Equal to its conjugate transpose (not in code). *)
Definition hermitian_mx {n} (M : 'M[R]_n) : Prop := adjoint M = M.
End SpecMxH.
Arguments has_cv {R} K m x {n} v.
Arguments has_mx_on {R} K m A P {p q} M.
Arguments has_mx {R} K m A {p q} M.
Arguments adjoint {R} K {p q} M.
Arguments hermitian_mx {R} K {n} M.

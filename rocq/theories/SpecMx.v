(** Vocabulary for C75: views that hold the matrices of the Mathematical Components library. *)
From mathcomp Require Import all_ssreflect all_algebra.
From Verif Require Import Mem Scalar View Spec.
Set Implicit Arguments.
Local Open Scope ring_scope.
Import GRing.Theory.

(** Elements: a commutative ring with (partial) division; every field is one. Conjugation is the identity.
    The algorithms use the operators of the element type, e.g. blas1_dot.hpp:104. *)
Definition ring_ops (R : comUnitRingType) : ops :=
  @Ops R 0 1 (fun x y => x + y) (fun x y => x - y) (fun x y => x * y) (fun x y => x / y) (fun x => x) (fun x => x).

Section SpecMx.
Variable R : comUnitRingType.
Notation O := (ring_ops R).

(** The view [x] holds the column vector [v]. *)
Definition holds_cv (m : mem O) (x : vec O) {n} (v : 'cV[R]_n) : Prop :=
  vext x = n /\ forall i : 'I_n, exists c, m (vaddr x i) = Some c /\ acc_read (vacc x) c = v i 0.
(** The view [A] has the shape of [M] and holds its elements selected by [P], all of them, or the stored ones. *)
Definition holds_mx_on (m : mem O) (A : mat O) (P : nat -> nat -> Prop) {p q} (M : 'M[R]_(p, q)) : Prop :=
  ext0 A = p /\ ext1 A = q /\
  forall (i : 'I_p) (j : 'I_q), P i j -> exists c, m (maddr A i j) = Some c /\ acc_read (macc A) c = M i j.
Definition holds_mx m A {p q} (M : 'M[R]_(p, q)) : Prop := holds_mx_on m A all2 M.

(** [M] is the triangular matrix a call with triangle [t] and diagonal [d] means: zero outside the triangle, and one on
    the diagonal if that is implicit. *)
Definition triangular (t : triangle) (d : diagonal) {n} (M : 'M[R]_n) : Prop :=
  (forall i j : 'I_n, ~ in_tri t i j -> M i j = 0) /\ (d = ImplicitUnit -> forall i, M i i = 1).
Definition symmetric_mx {n} (M : 'M[R]_n) : Prop := M^T = M.
End SpecMx.
Arguments holds_cv {R} m x {n} v.
Arguments holds_mx_on {R} m A P {p q} M.
Arguments holds_mx {R} m A {p q} M.
Arguments triangular {R} t d {n} M.
Arguments symmetric_mx {R n} M.

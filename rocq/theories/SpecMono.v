(** Specification vocabulary for calls with larger data (C102). *)
From Coq Require Import ZArith Reals.
From Flocq Require Import Core.Core IEEE754.BinarySingleNaN.
From Verif Require Import Scalar View Spec.
Set Implicit Arguments.
Local Open Scope sc_scope.

(** A relation between the elements of two calls that sums and products of an element type preserve. *)
Record monotone (O : ops) (le : O -> O -> Prop) : Prop := {
  mn_zero : le zero zero;
  mn_add : forall x1 x2 y1 y2 : O, le x1 x2 -> le y1 y2 -> le (x1 + y1) (x2 + y2);
  mn_mul : forall x1 x2 y1 y2 : O, le x1 x2 -> le y1 y2 -> le (x1 * y1) (x2 * y2);
  mn_conj : forall x1 x2 : O, le x1 x2 -> le (conj x1) (conj x2);
  mn_re : forall x1 x2 : O, le x1 x2 -> le (re x1) (re x2) }.

(** The elements of two vectors with the extent of x, or the selected elements of two matrices with the extents of A, are related. *)
Definition vec_le {O : ops} (le : O -> O -> Prop) (x : vec O) (f1 f2 : nat -> O) : Prop := forall i, i < vext x -> le (f1 i) (f2 i).
(** the same for a matrix *)
Definition mat_le {O : ops} (le : O -> O -> Prop) (A : mat O) (P : nat -> nat -> Prop) (a1 a2 : nat -> nat -> O) : Prop :=
  forall i j, i < ext0 A -> j < ext1 A -> P i j -> le (a1 i j) (a2 i j).
(** Equal extents. *)
Definition same_length {O : ops} (x1 x2 : vec O) : Prop := vext x1 = vext x2.
(** Equal extents of matrices. *)
Definition same_shape {O : ops} (A1 A2 : mat O) : Prop := ext0 A1 = ext0 A2 /\ ext1 A1 = ext1 A2.

(** Floating-point numbers: if [y] is finite then so is [x], and 0 <= x <= y. *)
Definition nonneg_below {prec emax} (x y : binary_float prec emax) : Prop :=
  is_finite y = true -> is_finite x = true /\ (0 <= B2R x <= B2R y)%R.
(** If [y] is finite then so is [x], and |x| <= y. *)
Definition dominated {prec emax} (x y : binary_float prec emax) : Prop :=
  is_finite y = true -> is_finite x = true /\ (Rabs (B2R x) <= B2R y)%R.

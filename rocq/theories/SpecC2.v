(** More specification vocabulary for complex floating-point arithmetic: scaled operands and triangular matrices. *)
From Coq Require Import Arith ZArith Reals.
From Flocq Require Import Core.Core IEEE754.BinarySingleNaN.
From Verif Require Import Scalar View Spec SpecR SpecF SpecC Ieee.
Local Open Scope R_scope.

Section SpecC2.
Context {prec emax : Z}.
Notation cx := (binary_float prec emax * binary_float prec emax)%type.
(** The symmetric matrix that the triangle [t] of [a] describes. *)
Definition csym_of (t : triangle) (a : nat -> nat -> cx) (i j : nat) : cx := if in_tri_b t i j then a i j else a j i.
(** [w] is an accurate value of the product x y. *)
Definition cproduct (x y w : cx) : Prop :=
  capproximates 2 (cfin x /\ cfin y) (prod_re x y) (prod_im x y) (mag_re x y) (mag_im x y) (2 * half_tiny prec emax) w.
(** Real and imaginary part of element (i, k) of the triangular matrix that [t], [d] and [a] describe. *)
Definition ctri_re (t : triangle) (d : diagonal) (a : nat -> nat -> cx) (i k : nat) : R :=
  if Nat.eqb i k then match d with Explicit => rpart (a i k) | ImplicitUnit => 1 end
  else if in_tri_b t i k then rpart (a i k) else 0.
Definition ctri_im (t : triangle) (d : diagonal) (a : nat -> nat -> cx) (i k : nat) : R :=
  if Nat.eqb i k then match d with Explicit => ipart (a i k) | ImplicitUnit => 0 end
  else if in_tri_b t i k then ipart (a i k) else 0.
(** Parts of (p + q i) y and the sums of the magnitudes of their two terms. *)
Definition tprod_re (p q : R) (y : cx) : R := p * rpart y - q * ipart y.
Definition tprod_im (p q : R) (y : cx) : R := p * ipart y + q * rpart y.
Definition tmag_re (p q : R) (y : cx) : R := Rabs p * Rabs (rpart y) + Rabs q * Rabs (ipart y).
Definition tmag_im (p q : R) (y : cx) : R := Rabs p * Rabs (ipart y) + Rabs q * Rabs (rpart y).
(** [r] is an accurate value of s + sum_k T(i,k) f_k.  Numbers of f and a outside the triangle, and the diagonal of a when
    it is implicit, have no influence. *)
Definition ctri_accurate (E : nat) (t : triangle) (d : diagonal) (n i : nat) (s : cx) (a : nat -> nat -> cx)
    (f : nat -> cx) (r : cx) : Prop :=
  capproximates E
    (cfin s /\ (forall k, (k < n)%nat -> in_tri t i k -> cfin (f k)) /\ (forall k, (k < n)%nat -> stored t d i k -> cfin (a i k)))
    (rpart s + rsum n (fun k => tprod_re (ctri_re t d a i k) (ctri_im t d a i k) (f k)))
    (ipart s + rsum n (fun k => tprod_im (ctri_re t d a i k) (ctri_im t d a i k) (f k)))
    (Rabs (rpart s) + rsum n (fun k => tmag_re (ctri_re t d a i k) (ctri_im t d a i k) (f k)))
    (Rabs (ipart s) + rsum n (fun k => tmag_im (ctri_re t d a i k) (ctri_im t d a i k) (f k)))
    (INR n * (2 * half_tiny prec emax)) r.
(** The same for s + sum_k f_k T(k,j). *)
Definition ctri_accurate_r (E : nat) (t : triangle) (d : diagonal) (n j : nat) (s : cx) (a : nat -> nat -> cx)
    (f : nat -> cx) (r : cx) : Prop :=
  capproximates E
    (cfin s /\ (forall k, (k < n)%nat -> in_tri t k j -> cfin (f k)) /\ (forall k, (k < n)%nat -> stored t d k j -> cfin (a k j)))
    (rpart s + rsum n (fun k => tprod_re (ctri_re t d a k j) (ctri_im t d a k j) (f k)))
    (ipart s + rsum n (fun k => tprod_im (ctri_re t d a k j) (ctri_im t d a k j) (f k)))
    (Rabs (rpart s) + rsum n (fun k => tmag_re (ctri_re t d a k j) (ctri_im t d a k j) (f k)))
    (Rabs (ipart s) + rsum n (fun k => tmag_im (ctri_re t d a k j) (ctri_im t d a k j) (f k)))
    (INR n * (2 * half_tiny prec emax)) r.
End SpecC2.

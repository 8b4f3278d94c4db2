(** Specification vocabulary for floating-point error bounds of compound expressions, real and complex. *)
From Coq Require Import ZArith Reals.
From Flocq Require Import Core.Core IEEE754.BinarySingleNaN.
From Verif Require Import Scalar View Spec SpecR SpecF Norm Ieee.
Local Open Scope R_scope.

(** [r] approximates the real number [x]: at most [E] roundings act on any of its terms, the magnitudes of the terms
    add up to [M] and underflows contribute at most [D] before rounding. [ok] says which inputs are finite: if r is
    finite so are they, and the error is bounded; and if they are, r is finite unless the bound allows overflow. *)
Definition approximates {prec emax} (E : nat) (ok : Prop) (x M D : R) (r : binary_float prec emax) : Prop :=
  let W := (1 + unit_roundoff prec) ^ E in
  (is_finite r = true -> ok /\ Rabs (B2R r - x) <= gam prec E * M + W * D) /\
  (ok -> W * M + W * D <= max_finite prec emax -> is_finite r = true).

(** [r] is an accurate value of s + sum_k T(i,k) f_k where T is the matrix triangle [t] of [a] describes. Numbers of f
    and a outside the triangle, and the diagonal of a when it is implicit, have no influence. *)
Definition tri_accurate {prec emax} (E : nat) (t : triangle) (d : diagonal) (n i : nat) (s : binary_float prec emax)
    (a : nat -> nat -> binary_float prec emax) (f : nat -> binary_float prec emax) (r : binary_float prec emax) : Prop :=
  approximates E
    (is_finite s = true /\ (forall k, (k < n)%nat -> in_tri t i k -> is_finite (f k) = true) /\
     (forall k, (k < n)%nat -> stored t d i k -> is_finite (a i k) = true))
    (B2R s + rsum n (fun k => rtri t d a i k * B2R (f k)))
    (Rabs (B2R s) + rsum n (fun k => Rabs (rtri t d a i k) * Rabs (B2R (f k))))
    (INR n * half_tiny prec emax) r.
(** The same for s + sum_k f_k T(k,j). *)
Definition tri_accurate_r {prec emax} (E : nat) (t : triangle) (d : diagonal) (n j : nat) (s : binary_float prec emax)
    (a : nat -> nat -> binary_float prec emax) (f : nat -> binary_float prec emax) (r : binary_float prec emax) : Prop :=
  approximates E
    (is_finite s = true /\ (forall k, (k < n)%nat -> in_tri t k j -> is_finite (f k) = true) /\
     (forall k, (k < n)%nat -> stored t d k j -> is_finite (a k j) = true))
    (B2R s + rsum n (fun k => B2R (f k) * rtri t d a k j))
    (Rabs (B2R s) + rsum n (fun k => Rabs (B2R (f k)) * Rabs (rtri t d a k j)))
    (INR n * half_tiny prec emax) r.

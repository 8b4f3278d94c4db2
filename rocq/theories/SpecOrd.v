(** Specification vocabulary for the order of rounded norms. *)
From Coq Require Import ZArith Reals.
From Flocq Require Import Core.Core IEEE754.BinarySingleNaN.
From Verif Require Import Mem Scalar View Spec SpecR SpecF Norm Ieee.
Local Open Scope R_scope.

(** x <= y as the language compares them: false as soon as one of them is NaN. *)
Definition fle {prec emax} (x y : binary_float prec emax) : Prop := Bleb x y = true.
(** x == 0 as the language compares them: either zero. *)
Definition fzero {prec emax} (x : binary_float prec emax) : Prop := Beqb x (B754_zero false) = true.
(** The magnitude of an element as a number of the format. *)
Definition emag {O : ops} {prec emax Hp He} (M : mags O (ieee_r prec emax Hp He)) (v : O) : binary_float prec emax := eabs M v.
(** What abs returns for an element that is not NaN: a number whose sign bit is clear, possibly infinite. *)
Definition magnitude {prec emax} (x : binary_float prec emax) : Prop := Babs x = x /\ is_nan x = false.
(** The smallest normal number. *)
Definition min_normal (emax : Z) : R := bpow radix2 (2 - emax).

(** Two computations that only read, each in its own memory, return r and r' with Q r r'. *)
Definition both_return {T T2 A} (p : prog T A) (m : mem T) (q : prog T2 A) (m2 : mem T2) (Q : A -> A -> Prop) : Prop :=
  exists r r', run p m = Ok r m /\ run q m2 = Ok r' m2 /\ Q r r'.
(** [r] is at least the start value and every g i, and it is zero exactly when all of them are. *)
Definition tops {prec emax} (init : binary_float prec emax) (n : nat) (g : nat -> binary_float prec emax) (r : binary_float prec emax) : Prop :=
  fle init r /\ (forall i, (i < n)%nat -> fle (g i) r) /\ (fzero r <-> fzero init /\ forall i, (i < n)%nat -> fzero (g i)).
Definition tops2 {prec emax} (init : binary_float prec emax) (n k : nat) (g : nat -> nat -> binary_float prec emax) (r : binary_float prec emax) : Prop :=
  fle init r /\ (forall i j, (i < n)%nat -> (j < k)%nat -> fle (g i j) r) /\
  (fzero r <-> fzero init /\ forall i j, (i < n)%nat -> (j < k)%nat -> fzero (g i j)).
(** [r'] is [r] times 2^e exactly, unless that overflows. *)
Definition scales {prec emax} (e : Z) (r r' : binary_float prec emax) : Prop :=
  is_finite r = true -> bpow radix2 e * B2R r <= max_finite prec emax -> is_finite r' = true /\ B2R r' = bpow radix2 e * B2R r.
(** y is 2^e x exactly, both magnitudes of finite numbers. *)
Definition scaled_by {prec emax} (e : Z) (x y : binary_float prec emax) : Prop :=
  magnitude x /\ magnitude y /\ is_finite x = true /\ is_finite y = true /\ B2R y = bpow radix2 e * B2R x.

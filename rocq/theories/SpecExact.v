(** Specification vocabulary for floating-point data that are integers (C105). *)
From Coq Require Import ZArith Reals.
From Flocq Require Import Core.Core IEEE754.BinarySingleNaN.
From Verif Require Import Spec.

(** The floating-point number x is the integer z. *)
Definition int_valued {prec emax} (x : binary_float prec emax) (z : Z) : Prop := is_finite x = true /\ B2R x = IZR z.
(** The integers z such that all of -z, ..., z are floating-point numbers with [prec] digits. *)
Definition fits_in (prec z : Z) : Prop := (z <= 2 ^ prec)%Z.
(** A symmetric matrix of integers; a triangular one, with ones on the diagonal if that is implicit. *)
Definition symmetric_z (p : nat -> nat -> Z) : Prop := forall i j, p i j = p j i.
Definition triangular_z (t : triangle) (d : diagonal) (p : nat -> nat -> Z) : Prop :=
  (forall i j, ~ in_tri t i j -> p i j = 0%Z) /\ (d = ImplicitUnit -> forall i, p i i = 1%Z).

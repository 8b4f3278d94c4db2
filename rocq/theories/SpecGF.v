(** Vocabulary for C74: plane rotations computed in floating-point arithmetic. *)
From Coq Require Import ZArith Reals.
From Flocq Require Import Core.Core IEEE754.BinarySingleNaN.
From Verif Require Import SpecF.
Local Open Scope R_scope.

(** Length of the vector (f, g). *)
Definition radius (f g : R) : R := sqrt (f * f + g * g).
(** The rotation is chosen with c > 0 when |f| > |g|, and with r > 0 otherwise (blas1_givens.hpp:208-213), for f and g not zero. *)
Definition rot_sign (f g : R) : R := if Rlt_dec (Rabs g) (Rabs f) then (if Rlt_dec f 0 then -1 else 1) else 1.

(** c, s and r are close to f/R, g/R and R, up to the common sign; r overflows only if R nearly does. *)
Definition accurate_rotation {prec emax} (f g c s r : binary_float prec emax) : Prop :=
  let R := radius (B2R f) (B2R g) in
  let sg := rot_sign (B2R f) (B2R g) in
  let eta := half_tiny prec emax in
  is_finite c = true /\ is_finite s = true /\
  Rabs (B2R c - sg * (B2R f / R)) <= gam prec 4 * Rabs (B2R f / R) + 5 * eta /\
  Rabs (B2R s - sg * (B2R g / R)) <= gam prec 4 * Rabs (B2R g / R) + 5 * eta /\
  (is_finite r = true -> Rabs (B2R r - sg * R) <= gam prec 3 * R + 2 * eta) /\
  ((1 + unit_roundoff prec) ^ 3 * R <= max_finite prec emax -> is_finite r = true).

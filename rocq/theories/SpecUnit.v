(** Specification vocabulary for calls with scaled or negated operands (C103). *)
From Coq Require Import ZArith Reals Bool.
From Flocq Require Import Core.Core IEEE754.BinarySingleNaN.
From Verif Require Import Scalar View Spec.
Set Implicit Arguments.
Local Open Scope sc_scope.

(** Relations between the data of two calls, as of numbers measured in different units: [lA] between first factors, [lX]
    between second factors, [lR] between products and sums of products. *)
Record graded (O : ops) (lA lX lR : O -> O -> Prop) : Prop := {
  gr_zero : lR zero zero;
  gr_add : forall r1 r2 s1 s2 : O, lR r1 r2 -> lR s1 s2 -> lR (r1 + s1) (r2 + s2);
  gr_mul : forall a1 a2 x1 x2 : O, lA a1 a2 -> lX x1 x2 -> lR (a1 * x1) (a2 * x2);
  gr_mul_r : forall a1 a2 x1 x2 : O, lA a1 a2 -> lX x1 x2 -> lR (x1 * a1) (x2 * a2);
  gr_conj_a : forall a1 a2 : O, lA a1 a2 -> lA (conj a1) (conj a2);
  gr_re_a : forall a1 a2 : O, lA a1 a2 -> lA (re a1) (re a2);
  gr_conj_x : forall x1 x2 : O, lX x1 x2 -> lX (conj x1) (conj x2);
  gr_re : forall r1 r2 : O, lR r1 r2 -> lR (re r1) (re r2) }.
(** The same for differences and quotients, as solves need them. *)
Record graded_div (O : ops) (lA lX lR : O -> O -> Prop) : Prop := {
  gr_sub : forall r1 r2 s1 s2 : O, lR r1 r2 -> lR s1 s2 -> lR (r1 - s1) (r2 - s2);
  gr_div : forall a1 a2 r1 r2 : O, lR r1 r2 -> lA a1 a2 -> lX (r1 / a1) (r2 / a2) }.
(** With an implicit unit diagonal, second factors are also terms of the result (or, for solves, the other way round). *)
Definition unit_ok {O : ops} (d : diagonal) (lX lR : O -> O -> Prop) : Prop := d = ImplicitUnit -> forall u v, lX u v -> lR u v.

(** x or -x *)
Definition signed {prec emax} (s : bool) (x : binary_float prec emax) : binary_float prec emax := if s then Bopp x else x.
(** Equal up to the sign [s]. *)
Definition flipped {prec emax} (s : bool) (x y : binary_float prec emax) : Prop := y = signed s x.
(** Equal up to the sign [s] and the signs of zeros. *)
Definition flipped0 {prec emax} (s : bool) (x y : binary_float prec emax) : Prop :=
  y = signed s x \/ ((exists u, x = B754_zero u) /\ exists v, y = B754_zero v).

(** Arithmetic with [prec] binary digits, rounded to nearest with ties to even, without limits on exponents. *)
Definition round_digits (prec : Z) (x : R) : R := Generic_fmt.round radix2 (FLX.FLX_exp prec) ZnearestE x.
(** The element type (not in code). *)
Definition digits_ops (prec : Z) : ops :=
  @Ops R 0%R 1%R (fun x y => round_digits prec (Rplus x y)) (fun x y => round_digits prec (Rminus x y))
    (fun x y => round_digits prec (Rmult x y)) (fun x y => round_digits prec (Rdiv x y)) (fun x => x) (fun x => x).
(** y = 2^k x *)
Definition shifted (k : Z) (x y : R) : Prop := y = Rmult (bpow radix2 k) x.

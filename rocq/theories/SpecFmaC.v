(** Specification vocabulary for complex numbers in contracted arithmetic (C101). *)
From Coq Require Import ZArith Reals.
From Flocq Require Import Core.Core IEEE754.BinarySingleNaN.
From Verif Require Import Scalar SpecFma Fma Trace SpecTrace FmaC.

(** Every complex number the expression may evaluate to satisfies [Q]. *)
Definition all_cvalues {prec emax Hp He} (a : cx (fma_ops prec emax Hp He)) (Q : binary_float prec emax * binary_float prec emax -> Prop) : Prop :=
  forall r, val (part_re a : poss prec emax) (fst r) -> val (part_im a : poss prec emax) (snd r) -> Q r.
(** A complex number whose parts have histories, and what it may be. *)
Definition may_be_ctraced {prec emax Hp He fuse} (x : cx (traced_ops prec emax Hp He fuse)) (a : cx (fma_ops prec emax Hp He)) : Prop :=
  may_be_traced (part_re x : traced prec emax) (part_re a : poss prec emax) /\
  may_be_traced (part_im x : traced prec emax) (part_im a : poss prec emax) /\ is_real x = is_real a.
(** A complex number that is not a product still pending, with the given value; the value. *)
Definition cvalue {prec emax Hp He fuse} (x : cx (traced_ops prec emax Hp He fuse)) : binary_float prec emax * binary_float prec emax :=
  (value (part_re x : traced prec emax), value (part_im x : traced prec emax)).
(** An input with the given value: nothing pending, not of the real type. *)
Definition cinput {prec emax Hp He fuse} (x : cx (traced_ops prec emax Hp He fuse)) (v : binary_float prec emax * binary_float prec emax) : Prop :=
  cvalue x = v /\ product (part_re x : traced prec emax) = None /\ product (part_im x : traced prec emax) = None /\ is_real x = false.

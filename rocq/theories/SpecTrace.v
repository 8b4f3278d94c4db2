(** Specification vocabulary for contraction chosen place by place (C99). *)
From Coq Require Import ZArith.
From Flocq Require Import Core.Core IEEE754.BinarySingleNaN.
From Verif Require Import Fma Trace.

(** A number with its history, and what it may be. *)
Definition may_be_traced {prec emax} (x : traced prec emax) (a : poss prec emax) : Prop :=
  val a (value x) /\ forall y z, product x = Some (y, z) -> pend a y z.

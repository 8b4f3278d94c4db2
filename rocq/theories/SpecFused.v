(** Specification vocabulary for integers in contracted arithmetic (C106). *)
From Coq Require Import ZArith.
From Flocq Require Import Core.Core IEEE754.BinarySingleNaN.
From Verif Require Import Fma SpecExact.

(** An expression that has a value, all of whose possible values are the integer z; a product that may still be fused has integer factors. *)
Definition surely {prec emax} (a : poss prec emax) (z : Z) : Prop :=
  (exists v, val a v) /\ (forall v, val a v -> int_valued v z) /\
  (forall x y, pend a x y -> exists u w, int_valued x u /\ int_valued y w /\ (u * w = z)%Z).

(** Specification vocabulary for complex floating-point data with integer parts (C108). *)
From Coq Require Import ZArith.
From Flocq Require Import Core.Core IEEE754.BinarySingleNaN.
From Verif Require Import Scalar Ieee IeeeC SpecExact.

(** The complex integers with exact arithmetic; division is not used. *)
Definition gauss : ops :=
  @Ops (Z * Z) (0, 0)%Z (1, 0)%Z (fun x y => (fst x + fst y, snd x + snd y)%Z) (fun x y => (fst x - fst y, snd x - snd y)%Z)
    (fun x y => (fst x * fst y - snd x * snd y, fst x * snd y + snd x * fst y)%Z) (fun x y => x) (fun x => (fst x, - snd x)%Z) (fun x => (fst x, 0)%Z).
(** Both parts of the complex number x are those of z. *)
Definition gauss_valued {prec emax} (x : cfl prec emax) (z : gauss) : Prop := int_valued (fst x) (fst z) /\ int_valued (snd x) (snd z).
(** |re| + |im| *)
Definition size (z : gauss) : Z := (Z.abs (fst z) + Z.abs (snd z))%Z.

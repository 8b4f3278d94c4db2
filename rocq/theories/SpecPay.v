(** Specification vocabulary for NaN payloads (C94). *)
From Coq Require Import ZArith.
From Flocq Require Import Core.Core IEEE754.BinarySingleNaN IEEE754.Binary.
From Verif Require Import Scalar Norm Givens Ieee IeeeC Payload.

Section Pay.
Context {prec emax : Z}.
(** The same number (the same bits) or two NaNs. *)
Definition same_number (x y : Binary.binary_float prec emax) : Prop :=
  x = y \/ (Binary.is_nan prec emax x = true /\ Binary.is_nan prec emax y = true).
Definition same_complex (x y : pcfl prec emax) : Prop := same_number (fst x) (fst y) /\ same_number (snd x) (snd y).
(** [y] is [x] without sign and payload of NaNs. *)
Definition forgets (x : Binary.binary_float prec emax) (y : BinarySingleNaN.binary_float prec emax) : Prop := y = B2BSN prec emax x.
Definition forgets_c (x : pcfl prec emax) (y : cfl prec emax) : Prop := forgets (fst x) (fst y) /\ forgets (snd x) (snd y).
End Pay.

(** Specification vocabulary for results of contracted arithmetic (C91). *)
From Coq Require Import ZArith Reals.
From Flocq Require Import Core.Core IEEE754.BinarySingleNaN.
From Verif Require Import Scalar View Spec SpecR SpecF SpecF2 Norm Ieee Fma.
Local Open Scope R_scope.

(** Every number the expression may evaluate to satisfies [P]. *)
Definition all_values {prec emax} (a : poss prec emax) (P : binary_float prec emax -> Prop) : Prop := forall v, val a v -> P v.
(** [r] approximates s + f_0 g_0 + ... + f_(n-1) g_(n-1), where [E] roundings act on a term at most. *)
Definition dot_accurate {prec emax} (E n : nat) (s : binary_float prec emax) (f g : nat -> binary_float prec emax)
    (r : binary_float prec emax) : Prop :=
  approximates E (is_finite s = true /\ all_finite n f /\ all_finite n g)
    (B2R s + rsum n (fun k => B2R (f k) * B2R (g k)))
    (Rabs (B2R s) + rsum n (fun k => Rabs (B2R (f k)) * Rabs (B2R (g k))))
    (INR n * half_tiny prec emax) r.
(** A number and what it may be. *)
Definition may_be {prec emax} (x : binary_float prec emax) (a : poss prec emax) : Prop := val a x.
(** A number with the pair last multiplied, and what it may be. *)
Definition may_be_pending {prec emax} (x : pending prec emax) (a : poss prec emax) : Prop :=
  val a (fst x) /\ forall y z, snd x = Some (y, z) -> pend a y z.

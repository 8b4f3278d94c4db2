(** Specification: two programs have the same result. *)
From Verif Require Import Mem Scalar View Spec.

(** Both end normally from [m] and leave the same memory. *)
Definition same_result {T} (p q : prog T unit) (m : mem T) : Prop :=
  exists m1 m2, run p m = Ok tt m1 /\ run q m = Ok tt m2 /\ same_memory m1 m2.

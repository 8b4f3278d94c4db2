(** Specification vocabulary for the counters of loops (C84). *)
From Coq Require Import ZArith.
From Verif Require Import Mem Scalar View SpecI Ints SpecI2.
Local Open Scope Z_scope.

(** The two programs have the same outcome, value and final memory from every memory. *)
Definition same_run {T A} (p q : prog T A) : Prop := forall m, run p m = run q m.
(** n is a number of index type t, and less than the bound on the iterations of a loop. *)
Definition extent_of (fuel : nat) (t : ikind) (n : nat) : Prop :=
  1 <= iwidth t /\ representable t (Z.of_nat n) /\ (n < fuel)%nat.
(** x and A are mdspans with index type t. *)
Definition vspan {O : ops} (fuel : nat) (t : ikind) (x : vec O) : Prop := extent_of fuel t (vext x).
Definition mspan {O : ops} (fuel : nat) (t : ikind) (A : mat O) : Prop := extent_of fuel t (ext0 A) /\ extent_of fuel t (ext1 A).
(** The extents of A are numbers of type ptrdiff_t. *)
Definition in_ptrdiff {O : ops} (A : mat O) : Prop :=
  representable (IK true 64) (Z.of_nat (ext0 A)) /\ representable (IK true 64) (Z.of_nat (ext1 A)).

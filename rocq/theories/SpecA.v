(** Specification notions for what has been carried out when an overload returns. *)
From Coq Require Import List.
From Verif Require Import Mem Scalar View Par KKBlas Async.
Import ListNotations.
Set Implicit Arguments.

(** [returns_with h lib m q m']: started in memory m, the overload h can return with the work q still queued and
    memory m'. *)
Definition returns_with {O : ops} (h : hprog O) lib (m : mem O) (q : list (item O)) (m' : mem O) : Prop :=
  hsteps lib (h, [], m) (HDone, q, m').
(** Whenever h returns, nothing is queued and memory is that after all regions of p have been carried out (under
    some schedule). *)
Definition complete_on_return {O : ops} (h : hprog O) (p : par O) : Prop :=
  forall lib m q m', returns_with h lib m q m' -> q = [] /\ par_result p m m'.

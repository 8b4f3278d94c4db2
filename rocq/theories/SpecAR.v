(** Specification vocabulary for mdspan objects of any rank: their elements are indexed by tuples. *)
From Coq Require Import List Arith.
From Verif Require Import Mem Scalar View AnyRank Spec.
Import ListNotations.

(** A tuple of [orank x] indices, each below its extent; a rank-0 object has the one empty tuple. *)
Definition index_of {O} (x : obj O) (i : list nat) : Prop :=
  length i = orank x /\ forall k, k < orank x -> nth k i 0 < oext x k.
Definition element_address {O} (x : obj O) (i : list nat) : nat := obase x + ooff x i.
Definition ocells {O} (x : obj O) : cellset := fun a => exists i, index_of x i /\ a = element_address x i.
(** Element i of x, read through the accessor, is [f i]. *)
Definition obj_holds {O : ops} (m : mem O) (x : obj O) (f : list nat -> O) : Prop :=
  forall i, index_of x i -> exists v, m (element_address x i) = Some v /\ acc_read (oacc x) v = f i.
Definition owritable {O} (x : obj O) : Prop :=
  oacc x = ADefault /\
  forall i j, index_of x i -> index_of x j -> element_address x i = element_address x j -> i = j.
Definition same_shape {O} (x y : obj O) : Prop :=
  orank x = orank y /\ forall k, k < orank x -> oext x k = oext y k.
Definition disjoint_or_aligned {O} (x z : obj O) : Prop :=
  disjoint (ocells x) (ocells z) \/ (forall i, index_of z i -> element_address x i = element_address z i).
(** The call compiles, and running it succeeds with a result satisfying Q. *)
Definition call_succeeds {O : ops} (c : option (prog O unit)) (m : mem O) (Q : mem O -> Prop) : Prop :=
  exists p, c = Some p /\ succeeds p m (fun _ m' => Q m').

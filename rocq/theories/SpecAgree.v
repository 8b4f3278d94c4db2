(** Specification vocabulary: two calls with the same effect. *)
From Verif Require Import Mem Scalar View Spec.
Set Implicit Arguments.

(** Started in [m], both programs end normally and leave the same value in every cell. *)
Definition agree {T} (p q : prog T unit) (m : mem T) : Prop :=
  exists m1 m2, run p m = Ok tt m1 /\ run q m = Ok tt m2 /\ same_memory m1 m2.
(** The same as far as the elements of [C] selected by [P] are concerned. *)
Definition agree_on {O : ops} (C : mat O) (P : nat -> nat -> Prop) (p q : prog O unit) (m : mem O) : Prop :=
  exists m1 m2, run p m = Ok tt m1 /\ run q m = Ok tt m2 /\
    forall i j, i < ext0 C -> j < ext1 C -> P i j -> m1 (maddr C i j) = m2 (maddr C i j).
(** The value matrix is its own (conjugate) transpose, as far as an n x n matrix is concerned. *)
Definition symmetric {O : ops} (n : nat) (a : nat -> nat -> O) : Prop :=
  forall i j, i < n -> j < n -> a i j = a j i.
Definition hermitian {O : ops} (n : nat) (a : nat -> nat -> O) : Prop :=
  (forall i, i < n -> re (a i i) = a i i) /\ (forall i j, i < n -> j < n -> i <> j -> a i j = conj (a j i)).
Definition flip (t : triangle) : triangle := match t with Lower => Upper | Upper => Lower end.

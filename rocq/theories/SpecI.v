(** Specification vocabulary for integer elements. *)
From Coq Require Import ZArith.
From Verif Require Import Spec.
Local Open Scope Z_scope.
(** f 0 + ... + f (n-1), and the maximum of f 0, ..., f (n-1) and 0. *)
Fixpoint zsum (n : nat) (f : nat -> Z) : Z := match n with O => 0 | S k => zsum k f + f k end.
Fixpoint zmax0 (n : nat) (f : nat -> Z) : Z := match n with O => 0 | S k => Z.max (zmax0 k f) (f k) end.
(** Largest number of a signed type of w bits. *)
Definition int_max (w : Z) : Z := 2 ^ (w - 1) - 1.
(** z is a number of the signed type of w bits. *)
Definition in_range (w z : Z) : Prop := - 2 ^ (w - 1) <= z <= int_max w.
(** Unknown j is known before unknown i when solving with triangle t. *)
Definition precedes (t : triangle) (i j : nat) : bool := match t with Lower => (j <? i)%nat | Upper => (i <? j)%nat end.
Definition zbefore (t : triangle) (n i : nat) (f : nat -> Z) : Z := zsum n (fun j => if precedes t i j then f j else 0).
(** The triangular matrix stored in triangle t of a. *)
Definition ztri (t : triangle) (d : diagonal) (a : nat -> nat -> Z) (i j : nat) : Z :=
  if (i =? j)%nat then match d with Explicit => a i i | ImplicitUnit => 1 end else if precedes t i j then a i j else 0.

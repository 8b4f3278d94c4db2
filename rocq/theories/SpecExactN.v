(** Specification vocabulary for norms of integers (C109). *)
From Coq Require Import ZArith.

(** max(0, f 0, ..., f (n-1)) *)
Fixpoint zmax (n : nat) (f : nat -> Z) : Z := match n with O => 0 | S k => Z.max (zmax k f) (f k) end.

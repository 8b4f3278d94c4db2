(** Specification notions for Kokkos algorithms that return a value. *)
From Verif Require Import Mem Spec SpecR Red.

(** Under every execution the parallel algorithm returns the value that the sequential program returns. *)
Definition red_same_as {T A X} (p : red T A X) (q : prog T X) (m : mem T) : Prop :=
  red_returns p m (fun r => returns q m (fun r' => r' = r)).

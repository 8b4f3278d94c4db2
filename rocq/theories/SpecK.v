(** Specification notions for the Kokkos back end. *)
From Coq Require Import List Arith Lia Bool.
From Verif Require Import Mem Scalar View Spec Par.
Set Implicit Arguments.

(** mdspans whose mapping and accessor the Kokkos views reproduce: contiguous vectors, and layout_left or
    layout_right matrices, with the default accessor. *)
Definition plain_v {O} (x : vec O) : Prop := vacc x = ADefault /\ forall i, i < vext x -> voff x i = i.
Definition plain_m {O} (A : mat O) : Prop := macc A = ADefault /\ (mlay A = LLeft \/ mlay A = LRight).

(** The parallel algorithm [p], under every schedule, leaves exactly the memory that the sequential program
    [q] leaves. *)
Definition par_same_as {T} (p : par T) (q : prog T unit) (m : mem T) : Prop :=
  par_succeeds p m (fun m' => succeeds q m (fun _ m'' => same_memory m'' m')).

(** [action i j], for the elements (i,j) of C in P: loads only from Rin i j and from C(i,j), stores only to
    C(i,j), and Rin i j contains no other element of C in P. *)
Definition elementwise {O : ops} (C : mat O) (P : nat -> nat -> Prop) (Rin : nat -> nat -> cellset)
    (action : nat -> nat -> prog O unit) : Prop :=
  forall i j, i < ext0 C -> j < ext1 C -> P i j ->
    touches (fun a => Rin i j a \/ a = maddr C i j) (fun a => a = maddr C i j) (action i j) /\
    forall i' j', i' < ext0 C -> j' < ext1 C -> P i' j' -> (i', j') <> (i, j) -> ~ Rin i j (maddr C i' j').

(** Parallel reductions: the meaning of Kokkos::parallel_reduce over a RangePolicy.

    Kokkos itself is not part of /repo (used e.g. in kokkos-kernels/blas1_vector_abs_sum_kk.hpp:31).  Every
    thread starts a private accumulator at the identity of the reducer, feeds it with the indices it is given,
    one after the other, and the accumulators are joined pairwise; which indices go together, their order and
    the shape of the joins are arbitrary.  The result replaces the variable reduced into.  The bodies modelled
    here only read memory. *)
From Coq Require Import List Arith Permutation.
From Verif Require Import Mem.
Import ListNotations.
Set Implicit Arguments.

Section Red.
Variables T A : Type.

(** [partial m body join e l x]: some execution has combined exactly the indices [l] into accumulator [x]. *)
Inductive partial (m : mem T) (body : nat -> A -> prog T A) (join : A -> A -> A) (e : A) : list nat -> A -> Prop :=
| partial_init : partial m body join e [] e
| partial_step : forall l x i y m', partial m body join e l x -> run (body i x) m = Ok y m' ->
    partial m body join e (l ++ [i]) y
| partial_join : forall l1 l2 x y, partial m body join e l1 x -> partial m body join e l2 y ->
    partial m body join e (l1 ++ l2) (join x y).

(** Every execution of parallel_reduce over [0, n): no call of the body fails or writes, and the result
    satisfies Q. *)
Definition reduce_ok (n : nat) (body : nat -> A -> prog T A) (join : A -> A -> A) (e : A) (m : mem T) (Q : A -> Prop) : Prop :=
  (forall l x i, NoDup (i :: l) -> (forall k, In k (i :: l) -> k < n) -> partial m body join e l x ->
     exists y, run (body i x) m = Ok y m) /\
  (forall l x, Permutation l (seq 0 n) -> partial m body join e l x -> Q x).

(** A Kokkos algorithm that returns a value of type X: checks, reductions and reads on the host. *)
Inductive red (X : Type) :=
| RDone (x : X)
| RThrow
| RIllFormed
| RHost (p : prog T A) (k : A -> red X)
| RReduce (n : nat) (body : nat -> A -> prog T A) (join : A -> A -> A) (e : A) (k : A -> red X).

(** Under every execution it returns a value that satisfies Q (memory is only read). *)
Fixpoint red_returns {X} (p : red X) (m : mem T) (Q : X -> Prop) : Prop :=
  match p with
  | RDone x => Q x
  | RThrow _ | RIllFormed _ => False
  | RHost p k => exists x, run p m = Ok x m /\ red_returns (k x) m Q
  | RReduce n body join e k => reduce_ok n body join e m (fun x => red_returns (k x) m Q)
  end.

(** [x] is returned by some execution. *)
Inductive red_result {X} (m : mem T) (r : X) : red X -> Prop :=
| red_done : red_result m r (RDone r)
| red_host : forall p k x m', run p m = Ok x m' -> red_result m r (k x) -> red_result m r (RHost p k)
| red_reduce : forall n body join e k l x, Permutation l (seq 0 n) -> partial m body join e l x ->
    red_result m r (k x) -> red_result m r (RReduce n body join e k).
End Red.
Arguments RDone {T A X}. Arguments RThrow {T A X}. Arguments RIllFormed {T A X}.
Arguments RHost {T A X}. Arguments RReduce {T A X}.

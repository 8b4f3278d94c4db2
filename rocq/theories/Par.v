(** Parallel regions: the meaning of Kokkos::parallel_for followed by a fence.

    Kokkos itself is not part of /repo.  A region is a list of tasks (one per index of the RangePolicy,
    e.g. kokkos-kernels/parallel_matrix.hpp:64); the tasks are executed in any interleaving of their single
    loads and stores.  Two tasks that are about to touch the same cell, one of them writing, are a data
    race (undefined behaviour in C++). *)
From Coq Require Import List Arith Lia Bool Relations.
From Verif Require Import Mem.
Import ListNotations.
Set Implicit Arguments.

Section Par.
Variable T : Type.
Notation task := (prog T unit).

(** One load or store of one task. *)
Inductive task_step : task -> mem T -> task -> mem T -> Prop :=
| step_get : forall a k m v, m a = Some v -> task_step (Get a k) m (k v) m
| step_put : forall a v k m w, m a = Some w -> task_step (Put a v k) m k (upd m a v).

(** One step of a region: any unfinished task makes a step. *)
Inductive region_step : list task * mem T -> list task * mem T -> Prop :=
| region_task : forall l1 p l2 m p' m', task_step p m p' m' ->
    region_step (l1 ++ p :: l2, m) (l1 ++ p' :: l2, m').

Definition reachable := clos_refl_trans_1n _ region_step.

Definition finished (p : task) : Prop := match p with Ret _ => True | _ => False end.

(** The next access of a task. *)
Definition reads_next (p : task) (a : nat) : Prop := match p with Get b _ => b = a | _ => False end.
Definition writes_next (p : task) (a : nat) : Prop := match p with Put b _ _ => b = a | _ => False end.
Definition race (ts : list task) : Prop :=
  exists l1 p l2 q l3 a, ts = l1 ++ p :: l2 ++ q :: l3 /\
    ((writes_next p a /\ (reads_next q a \/ writes_next q a)) \/ (reads_next p a /\ writes_next q a)).

(** A task that cannot go on although it is not finished: it fails or touches an unallocated cell. *)
Definition stuck (p : task) (m : mem T) : Prop := ~ finished p /\ forall p' m', ~ task_step p m p' m'.

(** Every schedule: never a race, never a stuck task; when all tasks are finished memory satisfies Q. *)
Definition region_ok (ts : list task) (m : mem T) (Q : mem T -> Prop) : Prop :=
  forall ts' m', reachable (ts, m) (ts', m') ->
    ~ race ts' /\ (forall p, In p ts' -> ~ stuck p m') /\ (Forall finished ts' -> Q m').

(** Every load of the task is in R and every store in W, whatever values the loads return. *)
Fixpoint touches {A} (R W : nat -> Prop) (p : prog T A) : Prop :=
  match p with
  | Ret _ => True
  | Get a k => R a /\ forall v, touches R W (k v)
  | Put a _ k => W a /\ touches R W k
  | Fail _ => True
  end.

(** A Kokkos algorithm: argument checks that may throw, then regions one after the other (the host code
    between regions does not touch memory). *)
Inductive par :=
| PDone
| PThrow
| PIllFormed   (* the call does not compile *)
| PFor (n : nat) (body : nat -> task) (k : par).

Definition tasks (n : nat) (body : nat -> task) : list task := map body (seq 0 n).

Fixpoint par_succeeds (p : par) (m : mem T) (Q : mem T -> Prop) : Prop :=
  match p with
  | PDone => Q m
  | PThrow => False
  | PIllFormed => False
  | PFor n body k => region_ok (tasks n body) m (fun m' => par_succeeds k m' Q)
  end.

(** [m'] is the memory after a complete execution (under some schedule of each region). *)
Inductive par_result : par -> mem T -> mem T -> Prop :=
| result_done : forall m, par_result PDone m m
| result_for : forall n body k m ts m1 m', reachable (tasks n body, m) (ts, m1) -> Forall finished ts ->
    par_result k m1 m' -> par_result (PFor n body k) m m'.

(** The algorithm throws before it has touched memory. *)
Definition par_throws (p : par) : Prop := p = PThrow.

(** [for (i = 0; i < n; ++i) { parallel_for(...); }] on the host. *)
Fixpoint par_seq (p q : par) : par :=
  match p with
  | PDone => q
  | PThrow => PThrow
  | PIllFormed => PIllFormed
  | PFor n body k => PFor n body (par_seq k q)
  end.
Fixpoint par_for (lo n : nat) (body : nat -> par) : par :=
  match n with
  | 0 => PDone
  | S n' => par_seq (body lo) (par_for (S lo) n' body)
  end.
End Par.
Arguments PDone {T}. Arguments PThrow {T}. Arguments PIllFormed {T}. Arguments PFor {T} _ _ _.

(** Specification vocabulary for footprints and concurrent calls (C85). *)
From Coq Require Import List.
From Verif Require Import Mem Spec.
Import ListNotations.
Set Implicit Arguments.

Definition cup (S1 S2 : cellset) : cellset := fun a => S1 a \/ S2 a.
Infix "+++" := cup (at level 50, left associativity).
Definition none : cellset := fun _ => False.

(** Whatever the memory contains, the program only loads from the cells R and only stores to the cells W. *)
Fixpoint touches {T A} (p : prog T A) (R W : cellset) : Prop :=
  match p with
  | Ret _ => True
  | Fail _ => True
  | Get a k => R a /\ forall v, touches (k v) R W
  | Put a _ k => W a /\ touches k R W
  end.

(** Threads on a shared memory: one load or store of one of them at a time. *)
Definition replace {X} (i : nat) (x : X) (l : list X) : list X := firstn i l ++ x :: skipn (S i) l.
Inductive step {T A} : list (prog T A) * mem T -> list (prog T A) * mem T -> Prop :=
| step_load i a k v ps m : nth_error ps i = Some (Get a k) -> m a = Some v -> step (ps, m) (replace i (k v) ps, m)
| step_store i a v w k ps m : nth_error ps i = Some (Put a v k) -> m a = Some w -> step (ps, m) (replace i k ps, upd m a v).
Inductive steps {T A} : list (prog T A) * mem T -> list (prog T A) * mem T -> Prop :=
| steps_none c : steps c c
| steps_more c c' c'' : step c c' -> steps c' c'' -> steps c c''.
(** All threads are done, with these results. *)
Definition finished {T A} (ps : list (prog T A)) (xs : list A) : Prop := ps = map (fun x => Ret x) xs.
(** Some thread is about to do something undefined. *)
Definition faulty {T A} (ps : list (prog T A)) (m : mem T) : Prop :=
  (exists i a k, nth_error ps i = Some (Get a k) /\ m a = None) \/
  (exists i a v k, nth_error ps i = Some (Put a v k) /\ m a = None) \/
  (exists i e, nth_error ps i = Some (Fail e)).
(** Two threads are about to access the same cell, one of them with a store. *)
Definition next_access {T A} (p : prog T A) (a : nat) (store : bool) : Prop :=
  match p with Get b _ => a = b /\ store = false | Put b _ _ => a = b /\ store = true | _ => False end.
Definition data_race {T A} (ps : list (prog T A)) : Prop :=
  exists i j p q a b, i <> j /\ nth_error ps i = Some p /\ nth_error ps j = Some q /\
    next_access p a true /\ next_access q a b.
(** A thread: program, cells it loads, cells it stores, and its outcome when run alone. *)
Record thread (T A : Type) := Thread { code : prog T A; loads : cellset; stores : cellset }.
Definition non_interfering {T A} (ts : list (thread T A)) : Prop :=
  forall i j s t, i <> j -> nth_error ts i = Some s -> nth_error ts j = Some t ->
    disjoint (stores s) (loads t) /\ disjoint (stores s) (stores t).
(** Every execution from here ends after finitely many steps. *)
Inductive terminates {T A} : list (prog T A) * mem T -> Prop :=
| all_end c : (forall c', step c c' -> terminates c') -> terminates c.

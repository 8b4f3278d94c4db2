(** Specification vocabulary for the loads and stores an algorithm performs (C96, C97). *)
From Coq Require Import List Arith.
From Verif Require Import Mem Scalar View Par Red SpecRel Spec.
Import ListNotations.
Set Implicit Arguments.

Inductive access := Loads (a : nat) | Stores (a : nat).
(** The loads and stores of a run, in order, up to its end or up to the access that fails. *)
Fixpoint accesses {T A} (p : prog T A) (m : mem T) : list access :=
  match p with
  | Ret _ | Fail _ => []
  | Get a k => Loads a :: match m a with Some v => accesses (k v) m | None => [] end
  | Put a v k => Stores a :: match m a with Some _ => accesses k (upd m a v) | None => [] end
  end.
(** The same when each load returns the next of given values, whoever stored it. *)
Fixpoint accesses_given {T A} (loaded : nat -> T) (p : prog T A) : list access :=
  match p with
  | Ret _ | Fail _ => []
  | Get a k => Loads a :: accesses_given (fun n => loaded (S n)) (k (loaded 0))
  | Put a v k => Stores a :: accesses_given loaded k
  end.

(** Views of the same cells through the same chain of accessors; nothing is said about factors of scaled views, nor about the
    element type. *)
Definition same_view_v {O1 O2 : ops} (x1 : vec O1) (x2 : vec O2) : Prop := vec_related (fun _ _ => True) x1 x2.
Definition same_view_m {O1 O2 : ops} (A1 : mat O1) (A2 : mat O2) : Prop := mat_related (fun _ _ => True) A1 A2.
Definition same_allocation {T1 T2} (m1 : mem T1) (m2 : mem T2) : Prop := forall a, m1 a = None <-> m2 a = None.

(** Whatever the memories contain, the accesses are the same, and both runs return or both fail in the same way. *)
Definition same_accesses {T1 T2 A1 A2} (p1 : prog T1 A1) (p2 : prog T2 A2) : Prop :=
  forall m1 m2, same_allocation m1 m2 ->
  accesses p1 m1 = accesses p2 m2 /\
  match run p1 m1, run p2 m2 with
  | Ok _ _, Ok _ _ => True
  | Err e1 _, Err e2 _ => e1 = e2
  | _, _ => False
  end.
(** Parallel algorithms launch the same regions, and each iteration performs the same accesses whatever it loads. *)
Fixpoint same_accesses_par {T1 T2} (p1 : par T1) (p2 : par T2) : Prop :=
  match p1, p2 with
  | PDone, PDone | PThrow, PThrow | PIllFormed, PIllFormed => True
  | PFor n1 b1 k1, PFor n2 b2 k2 => n1 = n2 /\
      (forall i l1 l2, accesses_given l1 (b1 i) = accesses_given l2 (b2 i)) /\ same_accesses_par k1 k2
  | _, _ => False
  end.
Fixpoint same_accesses_red {T1 T2 A1 A2 X1 X2} (p1 : red T1 A1 X1) (p2 : red T2 A2 X2) : Prop :=
  match p1, p2 with
  | RDone _, RDone _ | RThrow, RThrow | RIllFormed, RIllFormed => True
  | RHost q1 k1, RHost q2 k2 => same_accesses q1 q2 /\ forall x1 x2, same_accesses_red (k1 x1) (k2 x2)
  | RReduce n1 b1 _ _ k1, RReduce n2 b2 _ _ k2 => n1 = n2 /\
      (forall i s1 s2 l1 l2, accesses_given l1 (b1 i s1) = accesses_given l2 (b2 i s2)) /\
      forall x1 x2, same_accesses_red (k1 x1) (k2 x2)
  | _, _ => False
  end.

(** The load of element [i] of [x]. *)
Definition load_v {O : ops} (x : vec O) (i : nat) : access := Loads (vaddr x i).
(** f k such that no later f i, i <= n, exceeds it, found from the left. *)
Fixpoint largest {M} (ltb : M -> M -> bool) (f : nat -> M) (n : nat) : M :=
  match n with
  | 0 => f 0
  | S k => if ltb (largest ltb f k) (f n) then f n else largest ltb f k
  end.

(** * Number of accesses *)
Fixpoint loads (l : list access) : nat := match l with [] => 0 | Loads _ :: l => S (loads l) | Stores _ :: l => loads l end.
Fixpoint stores (l : list access) : nat := match l with [] => 0 | Loads _ :: l => stores l | Stores _ :: l => S (stores l) end.
(** Every run that returns performs exactly [l] loads and [s] stores. *)
Definition performs {T A} (p : prog T A) (l s : nat) : Prop :=
  forall m x m', run p m = Ok x m' -> loads (accesses p m) = l /\ stores (accesses p m) = s.
(** The number of pairs i < j < n, the size of a triangle without its diagonal. *)
Definition pairs (n : nat) : nat := n * (n - 1) / 2.
(** The number of entries of a triangle of order [n] that are stored: an implicit unit diagonal is not. *)
Definition stored_entries (d : diagonal) (n : nat) : nat := match d with Explicit => pairs n + n | ImplicitUnit => pairs n end.
(** [n] for an implicit unit diagonal, otherwise 0. *)
Definition if_unit (d : diagonal) (n : nat) : nat := match d with Explicit => 0 | ImplicitUnit => n end.
Definition if_explicit (d : diagonal) (n : nat) : nat := match d with Explicit => n | ImplicitUnit => 0 end.

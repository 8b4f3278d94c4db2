(** Specification vocabulary.

    This file only depends on the data model (memory, views, programs), not on any algorithm.  It
    defines what it means for a view to hold a mathematical vector / matrix, for a run to succeed and
    to change only certain cells, left-to-right sums, and the matrices that are
    described by one triangle. *)
From Coq Require Import List Arith Lia Bool.
From Verif Require Import Mem Scalar View.
Import ListNotations.
Set Implicit Arguments.

(** The program ends normally (no out-of-bounds access, no failed assertion, no exception) with a
    result and a memory satisfying [Q]. *)
Definition succeeds {T A} (p : prog T A) (m : mem T) (Q : A -> mem T -> Prop) : Prop :=
  exists x m', run p m = Ok x m' /\ Q x m'.

(** The program ends with failure [e], memory then satisfies [Q]. *)
Definition fails_with {T A} (p : prog T A) (m : mem T) (e : err) (Q : mem T -> Prop) : Prop :=
  exists m', run p m = Err e m' /\ Q m'.

(** * Cells and frames *)
Definition cellset := nat -> Prop.
Definition all2 : nat -> nat -> Prop := fun _ _ => True.

Definition vcells {O} (x : vec O) : cellset := fun a => exists i, i < vext x /\ a = vaddr x i.
(** Cells of the elements of [A] selected by [P]. *)
Definition mcells_on {O} (A : mat O) (P : nat -> nat -> Prop) : cellset :=
  fun a => exists i j, i < ext0 A /\ j < ext1 A /\ P i j /\ a = maddr A i j.
Definition mcells {O} (A : mat O) : cellset := mcells_on A all2.

Definition disjoint (S1 S2 : cellset) : Prop := forall a, S1 a -> S2 a -> False.
Definition changes_only {T} (m m' : mem T) (S : cellset) : Prop := forall a, ~ S a -> m' a = m a.
Definition same_memory {T} (m m' : mem T) : Prop := forall a, m' a = m a.

(** * A view holds a mathematical object *)
Definition vec_holds {O : ops} (m : mem O) (x : vec O) (f : nat -> O) : Prop :=
  forall i, i < vext x -> exists v, m (vaddr x i) = Some v /\ acc_read (vacc x) v = f i.
Definition mat_holds_on {O : ops} (m : mem O) (A : mat O) (P : nat -> nat -> Prop)
    (f : nat -> nat -> O) : Prop :=
  forall i j, i < ext0 A -> j < ext1 A -> P i j ->
    exists v, m (maddr A i j) = Some v /\ acc_read (macc A) v = f i j.
Definition mat_holds {O : ops} (m : mem O) (A : mat O) (f : nat -> nat -> O) : Prop :=
  mat_holds_on m A all2 f.

(** A view that may be written: default accessor, distinct indices are distinct cells
    (is_unique mapping). *)
Definition vwritable {O} (x : vec O) : Prop :=
  vacc x = ADefault /\
  forall i j, i < vext x -> j < vext x -> vaddr x i = vaddr x j -> i = j.
Definition mwritable_on {O} (A : mat O) (P : nat -> nat -> Prop) : Prop :=
  macc A = ADefault /\
  forall i j i' j', i < ext0 A -> j < ext1 A -> i' < ext0 A -> j' < ext1 A -> P i j -> P i' j' ->
    maddr A i j = maddr A i' j' -> i = i' /\ j = j'.
Definition mwritable {O} (A : mat O) : Prop := mwritable_on A all2.

Definition allocated {T} (m : mem T) (S : cellset) : Prop := forall a, S a -> m a <> None.

(** * Left-to-right sums: ((init + f lo) + f (lo+1)) + ... + f (lo+n-1) *)
Definition sum_from {O : ops} (init : O) (lo n : nat) (f : nat -> O) : O :=
  fold_left (fun s k => (s + f k)%sc) (seq lo n) init.
Definition bigsum {O : ops} (n : nat) (f : nat -> O) : O := sum_from zero 0 n f.

(** * Algebraic laws (hypotheses of the theorems that need them) *)
Record add_laws (O : ops) : Prop := AddLaws {
  add_assoc : forall x y z : O, (x + (y + z) = (x + y) + z)%sc;
  add_comm : forall x y : O, (x + y = y + x)%sc;
  add_0_l : forall x : O, (zero + x = x)%sc
}.
(** A (not necessarily commutative) ring. *)
Record ring_laws (O : ops) : Prop := RingLaws {
  ring_add : add_laws O;
  mul_add_l : forall x y z : O, (x * (y + z) = x * y + x * z)%sc;
  mul_add_r : forall x y z : O, ((x + y) * z = x * z + y * z)%sc;
  mul_assoc : forall x y z : O, (x * (y * z) = (x * y) * z)%sc;
  mul_1_l : forall x : O, (one * x = x)%sc;
  mul_1_r : forall x : O, (x * one = x)%sc;
  mul_0_l : forall x : O, (zero * x = zero)%sc;
  mul_0_r : forall x : O, (x * zero = zero)%sc;
  sub_add : forall x y : O, ((x - y) + y = x)%sc
}.
(** Division by nonzero elements, on both sides (true in every field). *)
Record div_laws (O : ops) : Prop := DivLaws {
  div_l : forall x y : O, y <> zero -> (y * (x / y) = x)%sc;
  div_r : forall x y : O, y <> zero -> ((x / y) * y = x)%sc
}.
Definition mul_commutes (O : ops) : Prop := forall x y : O, (x * y = y * x)%sc.
(** Conjugation is an involution compatible with + and *, and [re] is a conj-invariant "real part". *)
Record conj_laws (O : ops) : Prop := ConjLaws {
  conj_conj : forall x : O, conj (conj x) = x;
  conj_add : forall x y : O, conj (x + y)%sc = (conj x + conj y)%sc;
  conj_mul : forall x y : O, conj (x * y)%sc = (conj y * conj x)%sc;
  conj_re : forall x : O, conj (re x) = re x;
  re_real : forall x : O, conj x = x -> re x = x
}.

(** * Matrices described by one triangle *)
Inductive triangle := Lower | Upper.          (* lower_triangle_t / upper_triangle_t *)
Inductive diagonal := Explicit | ImplicitUnit. (* explicit_diagonal_t / implicit_unit_diagonal_t *)

Definition in_tri (t : triangle) (i j : nat) : Prop :=
  match t with Lower => j <= i | Upper => i <= j end.
Definition in_tri_b (t : triangle) (i j : nat) : bool :=
  match t with Lower => j <=? i | Upper => i <=? j end.
(** Elements of the triangle that the call is allowed to look at. *)
Definition stored (t : triangle) (d : diagonal) (i j : nat) : Prop :=
  in_tri t i j /\ (d = ImplicitUnit -> i <> j).

(** The symmetric / Hermitian / triangular matrix described by triangle [t] of [a]. *)
Definition sym_of {O : ops} (t : triangle) (a : nat -> nat -> O) (i j : nat) : O :=
  if in_tri_b t i j then a i j else a j i.
Definition herm_of {O : ops} (t : triangle) (a : nat -> nat -> O) (i j : nat) : O :=
  if i =? j then re (a i i) else if in_tri_b t i j then a i j else conj (a j i).
Definition tri_of {O : ops} (t : triangle) (d : diagonal) (a : nat -> nat -> O) (i j : nat) : O :=
  if i =? j then match d with Explicit => a i i | ImplicitUnit => one end
  else if in_tri_b t i j then a i j else zero.

(** * Aliasing allowed between an input and the output of an elementwise operation: either no common
    cell, or element i of the input lives in the same cell as element i of the output (e.g. the input
    is the output itself, or scaled(alpha, output)). *)
Definition aligned_v {O} (x z : vec O) : Prop := forall i, i < vext z -> vaddr x i = vaddr z i.
Definition aligned_m {O} (A C : mat O) : Prop :=
  forall i j, i < ext0 C -> j < ext1 C -> maddr A i j = maddr C i j.
Definition disjoint_or_aligned_v {O} (x z : vec O) : Prop :=
  disjoint (vcells x) (vcells z) \/ aligned_v x z.
Definition disjoint_or_aligned_m {O} (A C : mat O) : Prop :=
  disjoint (mcells A) (mcells C) \/ aligned_m A C.

(** * Row of a triangular matrix times a vector, evaluated from left to right over the triangle only.
    An implicit unit diagonal contributes the vector element itself. *)
Definition tri_term {O : ops} (d : diagonal) (a : nat -> nat -> O) (f : nat -> O) (i j : nat) : O :=
  if i =? j then match d with Explicit => (a i i * f i)%sc | ImplicitUnit => f i end
  else (a i j * f j)%sc.
Definition tri_row {O : ops} (init : O) (t : triangle) (d : diagonal) (n : nat)
    (a : nat -> nat -> O) (f : nat -> O) (i : nat) : O :=
  match t with
  | Lower => sum_from init 0 (i + 1) (tri_term d a f i)
  | Upper => sum_from init i (n - i) (tri_term d a f i)
  end.

(** * Layout mappings *)
(** The invariant of the padded layouts: the padded stride is at least the extent it pads. *)
Fixpoint layout_ok (l : layout) (e0 e1 : nat) : Prop :=
  match l with
  | LLeftPad ld => e0 <= ld
  | LRightPad ld => e1 <= ld
  | LTrans l' => layout_ok l' e1 e0
  | _ => True
  end.
Definition layout_unique (l : layout) (e0 e1 : nat) : Prop :=
  forall i j i' j', i < e0 -> j < e1 -> i' < e0 -> j' < e1 ->
    off l e0 e1 i j = off l e0 e1 i' j' -> i = i' /\ j = j'.

(** * Triangular solves and Hermitian updates *)
(** [divide s d] is an exact quotient for every diagonal element that the solve uses. *)
Definition div_ok {O : ops} (divide : O -> O -> O) (d : diagonal) (n : nat) (a : nat -> nat -> O) : Prop :=
  d = Explicit -> forall i s, i < n -> (a i i * divide s (a i i))%sc = s.
(** The same with the diagonal element on the right (for X T = B). *)
Definition div_ok_r {O : ops} (divide : O -> O -> O) (d : diagonal) (n : nat) (a : nat -> nat -> O) : Prop :=
  d = Explicit -> forall i s, i < n -> (divide s (a i i) * a i i)%sc = s.
(** All diagonal elements are their own conjugates. *)
Definition real_diagonal {O : ops} (m : mem O) (A : mat O) : Prop :=
  forall i, i < ext0 A -> i < ext1 A ->
    exists v, m (maddr A i i) = Some v /\ conj (acc_read (macc A) v) = acc_read (macc A) v.

(** * Column and row of a matrix view (what submdspan would give). *)
Definition col {O} (A : mat O) (j : nat) : vec O :=
  Vec (mbase A) (ext0 A) (fun i => off (mlay A) (ext0 A) (ext1 A) i j) (macc A).
Definition row {O} (A : mat O) (i : nat) : vec O :=
  Vec (mbase A) (ext1 A) (fun j => off (mlay A) (ext0 A) (ext1 A) i j) (macc A).
(** Two programs that end in the same way from every memory. *)
Definition same_effect {T A} (p q : prog T A) : Prop := forall m, run p m = run q m.

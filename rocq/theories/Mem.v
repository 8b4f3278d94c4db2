(** Memory, programs and their sequential semantics.

    Everything here is modelling infrastructure: it gives a meaning to "the C++ code loads from /
    stores to the element of an mdspan".  It has no direct counterpart in /repo, except where cited. *)
From Coq Require Import List Arith Lia.
Import ListNotations.
Set Implicit Arguments.

(** Outcomes other than normal return.  Undefined behaviour is never silently totalised. *)
Inductive err :=
| OutOfBounds      (* index outside the extents, or a cell that is not allocated: undefined behaviour *)
| NotWritable      (* assignment through a read-only accessor: does not compile in C++ *)
| AssertFailed     (* assert(false), e.g. blas3_matrix_product.hpp:1541 *)
| Thrown           (* std::runtime_error of the Kokkos back end, e.g. kokkos-kernels/blas3_matrix_product_kk.hpp:66-83 *)
| OutOfFuel.       (* a loop of the source did not finish within the given number of iterations *)

(** A memory maps addresses (in units of one element) to contents; [None]: not allocated.
    Simplification: one element type [T] for all objects (mixed precision is not modelled). *)
Definition mem (T : Type) := nat -> option T.

Definition upd {T} (m : mem T) (a : nat) (v : T) : mem T :=
  fun b => if Nat.eqb b a then Some v else m b.

(** Programs: finite trees of loads and stores (a free monad).  The same tree has a sequential
    semantics ([run]) and an interleaving semantics (Par.v). *)
Inductive prog (T A : Type) : Type :=
| Ret (x : A)
| Get (a : nat) (k : T -> prog T A)
| Put (a : nat) (v : T) (k : prog T A)
| Fail (e : err).
Arguments Ret {T A} _.
Arguments Get {T A} _ _.
Arguments Put {T A} _ _ _.
Arguments Fail {T A} _.

Fixpoint bind {T A B} (p : prog T A) (f : A -> prog T B) : prog T B :=
  match p with
  | Ret x => f x
  | Get a k => Get a (fun v => bind (k v) f)
  | Put a v k => Put a v (bind k f)
  | Fail e => Fail e
  end.

Declare Scope prog_scope.
Delimit Scope prog_scope with prog.
Notation "'let!' x ':=' p 'in' q" := (bind p (fun x => q))
  (at level 200, x name, p at level 100, q at level 200, right associativity) : prog_scope.
Notation "p ';;' q" := (bind p (fun _ => q))
  (at level 100, q at level 200, right associativity) : prog_scope.
Local Open Scope prog_scope.

(** Result of a run: the final memory is kept also on failure, so that one can state that an
    exception leaves memory unchanged. *)
Inductive res (T A : Type) : Type :=
| Ok (x : A) (m : mem T)
| Err (e : err) (m : mem T).
Arguments Ok {T A} _ _.
Arguments Err {T A} _ _.

(** Sequential semantics: loads and stores in program order; touching an unallocated cell is
    undefined behaviour. *)
Fixpoint run {T A} (p : prog T A) (m : mem T) : res T A :=
  match p with
  | Ret x => Ok x m
  | Get a k => match m a with Some v => run (k v) m | None => Err OutOfBounds m end
  | Put a v k => match m a with Some _ => run k (upd m a v) | None => Err OutOfBounds m end
  | Fail e => Err e m
  end.

(** [for (i = lo; i < lo+n; ++i) body(i)] *)
Fixpoint for_ {T} (lo n : nat) (body : nat -> prog T unit) : prog T unit :=
  match n with
  | 0 => Ret tt
  | S n' => body lo ;; for_ (S lo) n' body
  end.

(** [for (i = lo; i < hi; ++i) body(i)]; no iteration if [hi <= lo]. *)
Definition for_range {T} (lo hi : nat) (body : nat -> prog T unit) : prog T unit :=
  for_ lo (hi - lo) body.

(** [for (i = n-1; i >= 0; --i) body(i)] on a signed index, or [for (k = n; k > 0; --k) body(k-1)]. *)
Fixpoint for_down {T} (n : nat) (body : nat -> prog T unit) : prog T unit :=
  match n with
  | 0 => Ret tt
  | S n' => body n' ;; for_down n' body
  end.

(** Loop with a local accumulator: [for (i = lo; i < lo+n; ++i) acc = body(i, acc)]. *)
Fixpoint fold_ {T A} (lo n : nat) (body : nat -> A -> prog T A) (acc : A) : prog T A :=
  match n with
  | 0 => Ret acc
  | S n' => let! acc' := body lo acc in fold_ (S lo) n' body acc'
  end.

Definition fold_range {T A} (lo hi : nat) (body : nat -> A -> prog T A) (acc : A) : prog T A :=
  fold_ lo (hi - lo) body acc.

(** [if (b) p] *)
Definition when {T} (b : bool) (p : prog T unit) : prog T unit := if b then p else Ret tt.

(** Specification vocabulary for substitution without algebraic laws. *)
From Coq Require Import List.
From Verif Require Import Scalar Spec View.
Set Implicit Arguments.
Local Open Scope sc_scope.

(** ((init - f lo) - f (lo+1)) - ... - f (lo+n-1) *)
Definition diffs {O : ops} (init : O) (lo n : nat) (f : nat -> O) : O :=
  fold_left (fun s k => s - f k) (seq lo n) init.
(** Index range of the unknowns that precede unknown i when solving with triangle [t]. *)
Definition sub_lo (t : triangle) (i : nat) : nat := match t with Lower => 0 | Upper => i + 1 end.
Definition sub_len (t : triangle) (n i : nat) : nat := match t with Lower => i | Upper => n - (i + 1) end.
(** Unknown i of T f = b by substitution: b_i minus the terms of the preceding unknowns in index order,
    then divided by the diagonal element. *)
Definition subst_value {O : ops} (divide : O -> O -> O) (t : triangle) (d : diagonal) (n : nat)
    (a : nat -> nat -> O) (b f : nat -> O) (i : nat) : O :=
  let s := diffs (b i) (sub_lo t i) (sub_len t n i) (fun j => a i j * f j) in
  match d with Explicit => divide s (a i i) | ImplicitUnit => s end.
(** Unknown j of f T = b: triangle [t] of T is the opposite triangle of its transpose. *)
Definition subst_value_r {O : ops} (t : triangle) (d : diagonal) (n : nat)
    (a : nat -> nat -> O) (b f : nat -> O) (j : nat) : O :=
  let t' := match t with Lower => Upper | Upper => Lower end in
  let s := diffs (b j) (sub_lo t' j) (sub_len t' n j) (fun k => f k * a k j) in
  match d with Explicit => s / a j j | ImplicitUnit => s end.

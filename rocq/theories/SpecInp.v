(** Specification vocabulary for in-place triangular products without algebraic laws. *)
From Coq Require Import List.
From Verif Require Import Scalar Spec View.
Import ListNotations.
Set Implicit Arguments.
Local Open Scope sc_scope.

(** (s + f k1) + f k2 + ... for the indices k1, k2, ... of [l] *)
Definition added {O : ops} (s : O) (l : list nat) (f : nat -> O) : O := fold_left (fun s k => s + f k) l s.
(** Indices of the terms beside the diagonal one of row i of T x, in the order in which they are added: away from the
    diagonal. *)
Definition row_order (t : triangle) (n i : nat) : list nat :=
  match t with Lower => rev (seq 0 i) | Upper => seq (i + 1) (n - (i + 1)) end.
(** Indices of the terms beside the diagonal one of column j of x T, in the order in which they are added: increasing. *)
Definition col_order (t : triangle) (n j : nat) : list nat :=
  match t with Lower => seq (j + 1) (n - (j + 1)) | Upper => seq 0 j end.
(** The diagonal term: the old element, or its product with the diagonal element of the matrix. *)
Definition times_diag {O : ops} (d : diagonal) (product old : O) : O := match d with Explicit => product | ImplicitUnit => old end.

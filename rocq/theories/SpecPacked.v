(** Specification of packed storage: the elements of one triangle, column by column or row by row. *)
From Coq Require Import List Arith.
From Verif Require Import Mem Scalar View Spec LayoutG.
Import ListNotations.

(** Indices, along line [l] (column or row), of the elements of the triangle. *)
Definition packed_line (t : triangle) (o : order) (n l : nat) : list nat :=
  match o, t with
  | ColMajor, Upper | RowMajor, Lower => seq 0 (l + 1)
  | ColMajor, Lower | RowMajor, Upper => seq l (n - l)
  end.
(** The elements (row, column) in the order in which they are stored. *)
Definition packed_elems (t : triangle) (o : order) (n : nat) : list (nat * nat) :=
  flat_map (fun l => map (fun k => match o with ColMajor => (k, l) | RowMajor => (l, k) end) (packed_line t o n l)) (seq 0 n).
(** [len] cells from [base] on *)
Definition cells_from (base len : nat) : cellset := fun c => base <= c < base + len.
(** The array of n (n + 1) / 2 cells at [base] holds the triangle of the matrix [a]. *)
Definition array_holds {O : ops} (m : mem O) (base : nat) (es : list (nat * nat)) (a : nat -> nat -> O) : Prop :=
  forall k i j, nth_error es k = Some (i, j) -> m (base + k) = Some (a i j).

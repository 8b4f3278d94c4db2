(** Specification vocabulary for offsets in the index type (C92): the preconditions of mdspan. *)
From Coq Require Import ZArith Arith.
From Verif Require Import Mem Scalar View SpecI Ints SpecI2 MapIdx.
Local Open Scope Z_scope.

Definition is_number (t : ikind) (n : nat) : Prop := representable t (Z.of_nat n).
(** The strides of a layout that is not user-defined are numbers of type t. *)
Fixpoint strides_in (t : ikind) (l : layout) : Prop :=
  match l with
  | LLeft | LRight => True
  | LStride s0 s1 => is_number t s0 /\ is_number t s1
  | LLeftPad ld | LRightPad ld => is_number t ld
  | LTrans l' => strides_in t l'
  | LUser _ => False
  end.
(** The index type t, of at most 64 bits, can represent the extents, the strides and the required span size of A. *)
Definition addressable_m {O : ops} (t : ikind) (A : mat O) : Prop :=
  1 <= iwidth t <= 64 /\ is_number t (ext0 A) /\ is_number t (ext1 A) /\ strides_in t (mlay A) /\
  forall n, span_size (mlay A) (ext0 A) (ext1 A) = Some n -> is_number t n.
(** x is contiguous or has stride s; one past its last offset is a number of type t. *)
Definition addressable_v {O : ops} (t : ikind) (l : vlayout) (x : vec O) : Prop :=
  1 <= iwidth t <= 64 /\ is_number t (vext x) /\
  match l with
  | VContiguous => forall i, (i < vext x)%nat -> voff x i = i
  | VStrided s => is_number t s /\ (forall i, (i < vext x)%nat -> voff x i = i * s)%nat /\
      ((0 < vext x)%nat -> is_number t ((vext x - 1) * s + 1))
  end.

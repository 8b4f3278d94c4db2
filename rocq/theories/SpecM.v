(** Vocabulary for C72 (static extents) and C73 (layout_blas_general). *)
From Coq Require Import List Arith.
From Verif Require Import Static LayoutG.

(** A view whose static extent is [s] can have [n] elements. *)
Definition agrees (s : sext) (n : nat) : Prop := forall k, s = Some k -> n = k.
(** The run-time extents [n] of all arguments of a call agree with their static extents, and the algorithm's
    precondition that the extents be equal holds. *)
Definition equal_lengths (ss : list sext) (n : nat) : Prop := forall s, In s ss -> agrees s n.

(** The BLAS convention: element (i,j) of a matrix with leading dimension [lda]. *)
Definition blas_offset (o : order) (lda i j : nat) : nat :=
  match o with ColMajor => i + lda * j | RowMajor => i * lda + j end.
(** A leading dimension that the BLAS accepts. *)
Definition valid_lda (o : order) (e0 e1 lda : nat) : Prop :=
  match o with ColMajor => e0 <= lda | RowMajor => e1 <= lda end.

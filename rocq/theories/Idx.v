(** Index types of mdspan extents and the integer conversions the source performs on them.
    Follows the C++ rules ([conv.prom], [expr.arith.conv], modular conversion of C++20); used where the
    source computes [extent - 1] or stores a [size_type] in a [ptrdiff_t]. *)
From Coq Require Import ZArith Lia.
Local Open Scope Z_scope.

(** std::common_type_t of the views' size types, e.g. blas2_matrix_vector_solve.hpp:79. *)
Inductive ity := I8 | U8 | I16 | U16 | I32 | U32 | I64 | U64.

Definition bits (t : ity) : Z :=
  match t with I8 | U8 => 8 | I16 | U16 => 16 | I32 | U32 => 32 | I64 | U64 => 64 end.
Definition is_signed (t : ity) : bool :=
  match t with I8 | I16 | I32 | I64 => true | _ => false end.

(** Conversion of an integer value to type [t] (modular). *)
Definition wrap (t : ity) (z : Z) : Z :=
  let r := z mod 2 ^ bits t in
  if is_signed t then (if r <? 2 ^ (bits t - 1) then r else r - 2 ^ bits t) else r.

Definition max_of (t : ity) : Z := if is_signed t then 2 ^ (bits t - 1) - 1 else 2 ^ bits t - 1.

(** Integer promotion: types narrower than int become int (32 bit); usual arithmetic
    conversions with an int literal keep 32- and 64-bit types. *)
Definition promote (t : ity) : ity :=
  match t with I8 | U8 | I16 | U16 => I32 | _ => t end.

(** Result type of arithmetic between type [t] and ptrdiff_t (64-bit signed). *)
Definition with_ptrdiff (t : ity) : ity := match t with U64 => U64 | _ => I64 end.

(** std::make_signed_t *)
Definition make_signed (t : ity) : ity :=
  match t with U8 => I8 | U16 => I16 | U32 => I32 | U64 => I64 | _ => t end.

(** The extent [n] is representable in the index type and no larger than an object can be
    (ptrdiff_t). *)
Definition fits (t : ity) (n : nat) : Prop := Z.of_nat n <= max_of t /\ Z.of_nat n <= max_of I64.

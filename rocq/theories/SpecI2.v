(** Specification vocabulary for integer element types of every width (C83). *)
From Coq Require Import ZArith.
From Verif Require Import SpecI Ints.
Local Open Scope Z_scope.

(** z is a number of type t. *)
Definition representable (t : ikind) (z : Z) : Prop :=
  if isigned t then in_range (iwidth t) z else 0 <= z < 2 ^ iwidth t.
(** r is z reduced to type t. *)
Definition reduced (t : ikind) (z r : Z) : Prop := representable t r /\ exists k, z - r = k * 2 ^ iwidth t.
(** Arithmetic on values of type t takes place in this type: int, or t if it is not narrower. *)
Definition arith_type (t : ikind) : ikind := if iwidth t <? 32 then IK true 32 else t.
(** The number z, as a value of type t. *)
Definition int_value (t : ikind) (z : Z) : ival := IV t (Some z).
Definition undefined (t : ikind) : ival := IV t None.
(** v is the number z, an operation's result on elements of type t, stored in type s. *)
Definition defined_result (t : ikind) (z : Z) : Prop := isigned (arith_type t) = false \/ representable (arith_type t) z.
Definition is_result (s t : ikind) (z : Z) (v : ival) : Prop :=
  (defined_result t z -> exists r, reduced s z r /\ v = int_value s r) /\
  (~ defined_result t z -> v = undefined s).
(** No operation overflows in a + x 0 * y 0 + ..., accumulated in type s, the x k and y k of type t. *)
Definition defined_sum (s t : ikind) (a : Z) (n : nat) (x y : nat -> Z) : Prop :=
  forall k, (k < n)%nat ->
    defined_result t (x k * y k) /\
    forall r, reduced s (a + zsum k (fun j => x j * y j)) r -> defined_result t (r + x k * y k).
(** v is that sum, reduced to type s, if no operation overflows, and undefined otherwise. *)
Definition is_sum (s t : ikind) (a : Z) (n : nat) (x y : nat -> Z) (v : ival) : Prop :=
  (defined_sum s t a n x y -> exists r, reduced s (a + zsum n (fun j => x j * y j)) r /\ v = int_value s r) /\
  (~ defined_sum s t a n x y -> v = undefined s).
(** Types whose operations a + x * y never overflow: signed ones of up to 16 and unsigned ones of up to 15 bits, and
    unsigned ones at least as wide as int. *)
Definition never_overflows (t : ikind) : Prop :=
  1 <= iwidth t <= 15 \/ (isigned t = true /\ iwidth t = 16) \/ (isigned t = false /\ 32 <= iwidth t).

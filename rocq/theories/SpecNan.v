(** Specification vocabulary for elements that spoil every result they enter, such as NaN. *)
From Verif Require Import Scalar View Spec.
Set Implicit Arguments.
Local Open Scope sc_scope.

(** Once an operand satisfies [bad], so does the result of an operation, whatever the other operand. *)
Record absorbing (O : ops) (bad : O -> Prop) : Prop := {
  ab_add : forall x y : O, bad x \/ bad y -> bad (x + y);
  ab_sub : forall x y : O, bad x \/ bad y -> bad (x - y);
  ab_mul : forall x y : O, bad x \/ bad y -> bad (x * y);
  ab_div : forall x y : O, bad x \/ bad y -> bad (x / y);
  ab_conj : forall x : O, bad x -> bad (conj x);
  ab_re : forall x : O, bad x -> bad (re x) }.

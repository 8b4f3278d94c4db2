(** Specification vocabulary for C58: the BLAS notions op(A) (A, its transpose or its conjugate transpose)
    and the triangle of op(A). *)
From Verif Require Import Scalar View Spec.
Set Implicit Arguments.

Inductive trans := NoTrans | Trans | ConjTrans.

(** Element (i,j) of op(a). *)
Definition op_el {O : ops} (o : trans) (a : nat -> nat -> O) (i j : nat) : O :=
  match o with NoTrans => a i j | Trans => a j i | ConjTrans => conj (a j i) end.
(** Rows and columns of op(A). *)
Definition op_rows {O} (o : trans) (A : mat O) : nat := match o with NoTrans => ext0 A | _ => ext1 A end.
Definition op_cols {O} (o : trans) (A : mat O) : nat := match o with NoTrans => ext1 A | _ => ext0 A end.
(** The triangle of op(A) that corresponds to triangle [t] of A. *)
Definition op_tri (o : trans) (t : triangle) : triangle :=
  match o, t with NoTrans, _ => t | _, Lower => Upper | _, Upper => Lower end.

(** [Av] is the argument a user passes for op(A): A, transposed(A) or conjugate_transposed(A).
    [fp], [fnc], [nc]: the library's configuration macros and whether the element type is noncomplex. *)
Definition op_view {O : ops} (fp fnc nc : bool) (o : trans) (A Av : mat O) : Prop :=
  match o with
  | NoTrans => Av = A
  | Trans => transposed fp A = Some Av
  | ConjTrans => conjugate_transposed fp fnc nc A = Some Av
  end.
(** Conjugation is an involution, and the identity for noncomplex element types. *)
Definition conj_ok (O : ops) (nc : bool) : Prop :=
  (forall v : O, conj (conj v) = v) /\ (nc = true -> forall v : O, conj v = v).

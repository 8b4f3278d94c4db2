(** Scalar operations used by the algorithms, and the helper functions
    conj_if_needed / real_if_needed / imag_if_needed / abs_if_needed. *)
Set Implicit Arguments.

(** The operations an element type must offer.  No law is assumed: a floating-point type is an
    instance.  [conj] stands for impl::conj_if_needed (conj_if_needed.hpp:63-92) and [re] for
    impl::real_if_needed (real_if_needed.hpp:63-88).
    Simplification: [re] returns the real part embedded in the element type (C++ returns the
    real type, which every use in /repo immediately multiplies with / assigns to the element type). *)
Record ops := Ops {
  car :> Type;
  zero : car;
  one : car;
  add : car -> car -> car;
  sub : car -> car -> car;
  mul : car -> car -> car;
  div : car -> car -> car;
  conj : car -> car;
  re : car -> car
}.
Arguments zero {o}.
Arguments one {o}.
Arguments add {o} _ _.
Arguments sub {o} _ _.
Arguments mul {o} _ _.
Arguments div {o} _ _.
Arguments conj {o} _.
Arguments re {o} _.

Declare Scope sc_scope.
Delimit Scope sc_scope with sc.
Infix "+" := add : sc_scope.
Infix "-" := sub : sc_scope.
Infix "*" := mul : sc_scope.
Infix "/" := div : sc_scope.

(** How the *_if_needed helpers classify an element type. *)
Inductive kind :=
| KUnsigned        (* unsigned arithmetic type *)
| KArith           (* any other arithmetic type *)
| KCustomNoAdl     (* user type without the ADL function *)
| KCustomAdl.      (* user type (or std::complex) with the ADL function *)

(** conj_if_needed.hpp:71-92: identity for arithmetic types and when no ADL conj exists. *)
Definition conj_if_needed {T} (k : kind) (adl_conj : T -> T) (t : T) : T :=
  match k with KCustomAdl => adl_conj t | _ => t end.

(** real_if_needed.hpp:63-88: identity for arithmetic types and when no ADL real exists. *)
Definition real_if_needed {T} (k : kind) (adl_real : T -> T) (t : T) : T :=
  match k with KCustomAdl => adl_real t | _ => t end.

(** imag_if_needed.hpp:63-88: a value-initialised T for arithmetic types and when no ADL imag exists. *)
Definition imag_if_needed {T} (k : kind) (z : T) (adl_imag : T -> T) (t : T) : T :=
  match k with KCustomAdl => adl_imag t | _ => z end.

(** abs_if_needed.hpp:67-81: identity for unsigned types; std::abs for other arithmetic types;
    ADL abs otherwise; [None]: the call does not compile (no abs for the type). *)
Definition abs_if_needed {T R} (k : kind) (as_is std_abs adl_abs : T -> R) (t : T) : option R :=
  match k with
  | KUnsigned => Some (as_is t)
  | KArith => Some (std_abs t)
  | KCustomAdl => Some (adl_abs t)
  | KCustomNoAdl => None
  end.

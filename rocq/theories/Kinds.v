(** Element types by what the *_if_needed helpers find for them. *)
From Coq Require Import List Arith.
From Verif Require Import Scalar Norm.

(** An element type: its kind, its arithmetic and the functions conj and real found by argument-dependent lookup, which
    matter only for [KCustomAdl].  Simplification: conj and real are both present or both absent. *)
Record elem := Elem {
  etype : Type;
  ekind : kind;
  e0 : etype; e1 : etype;
  eadd : etype -> etype -> etype; esub : etype -> etype -> etype;
  emul : etype -> etype -> etype; ediv : etype -> etype -> etype;
  adl_conj : etype -> etype; adl_real : etype -> etype
}.
(** The operations the algorithms use for it: conj_if_needed (conj_if_needed.hpp:71-92), real_if_needed
    (real_if_needed.hpp:63-88). *)
Definition ops_of (e : elem) : ops :=
  Ops (e0 e) (e1 e) (eadd e) (esub e) (emul e) (ediv e)
    (conj_if_needed (ekind e) (adl_conj e)) (real_if_needed (ekind e) (adl_real e)).

(** std::is_arithmetic_v, e.g. blas1_vector_abs_sum.hpp:95 *)
Definition is_arithmetic (k : kind) : bool := match k with KUnsigned | KArith => true | _ => false end.
(** The magnitudes of such a type: abs_if_needed (abs_if_needed.hpp:67-85), real_if_needed and imag_if_needed
    (imag_if_needed.hpp:63-88).  [to] converts a value to the real type.  [None]: the algorithm does not compile, there
    being no abs. *)
Definition mags_of (e : elem) (F : rops) (adl_imag : etype e -> etype e) (to std_abs adl_abs : etype e -> F) : option (mags (ops_of e) F) :=
  match abs_if_needed (ekind e) to std_abs adl_abs (e0 e) with
  | None => None
  | Some _ => Some (@Mags (ops_of e) F (is_arithmetic (ekind e))
      (fun t => match abs_if_needed (ekind e) to std_abs adl_abs t with Some r => r | None => to t end)
      (fun t => to (real_if_needed (ekind e) (adl_real e) t))
      (fun t => to (imag_if_needed (ekind e) (e0 e) adl_imag t)))
  end.

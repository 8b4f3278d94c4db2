(** IEEE-754 binary floating-point arithmetic (Flocq), rounding to nearest even, as arithmetic for the
    model: what float and double do on the platforms the library targets. *)
From Coq Require Import ZArith Reals Bool.
From Flocq Require Import Core.Core IEEE754.BinarySingleNaN.
From Verif Require Import Scalar Norm Givens.

Section Ieee.
Variables prec emax : Z.
Context (Hp : Prec_gt_0 prec) (He : Prec_lt_emax prec emax).

Definition ieee_r : rops :=
  @Rops (binary_float prec emax) (B754_zero false) (Bone (prec_gt_0_ := Hp) (prec_lt_emax_ := He))
    (Bplus mode_NE) (Bminus mode_NE) (Bmult mode_NE) (Bdiv mode_NE) (Bsqrt mode_NE) (@Babs prec emax)
    (@Bltb prec emax) (@Beqb prec emax).

(** The same arithmetic as element type of vectors and matrices: real numbers, for which
    conj_if_needed and real_if_needed are the identity (conj_if_needed.hpp:63-92, real_if_needed.hpp:63-88).
    Each operation is rounded on its own: no contraction into fused multiply-add, no wider
    intermediate format. *)
Definition ieee_ops : ops :=
  @Ops (binary_float prec emax) (B754_zero false) (Bone (prec_gt_0_ := Hp) (prec_lt_emax_ := He))
    (Bplus mode_NE) (Bminus mode_NE) (Bmult mode_NE) (Bdiv mode_NE) (fun x => x) (fun x => x).

(** The C library's hypot is not specified by IEEE-754; it is a parameter. *)
Definition ieee (hypot : binary_float prec emax -> binary_float prec emax -> binary_float prec emax) : fops :=
  @Fops ieee_r (@Bleb prec emax) (@Bopp prec emax) (@is_nan prec emax) hypot.

Definition is_inf (x : binary_float prec emax) : bool :=
  match x with B754_infinity _ => true | _ => false end.
Definition is_zero (x : binary_float prec emax) : bool :=
  match x with B754_zero _ => true | _ => false end.
End Ieee.

(** binary32 and binary64 *)
#[export] Instance prec24 : Prec_gt_0 24 := eq_refl.
#[export] Instance prec53 : Prec_gt_0 53 := eq_refl.
#[export] Instance emax128 : Prec_lt_emax 24 128 := eq_refl.
#[export] Instance emax1024 : Prec_lt_emax 53 1024 := eq_refl.
Definition binary64 : Type := binary_float 53 1024.
Definition binary32 : Type := binary_float 24 128.
(** 2^k in binary64 and binary32 *)
Definition pow2_64 (k : Z) : binary64 := Bldexp mode_NE Bone k.
Definition pow2_32 (k : Z) : binary32 := Bldexp mode_NE Bone k.

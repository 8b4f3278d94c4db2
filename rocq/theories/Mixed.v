(** Elements of a narrow floating-point type (float) combined with an accumulator or output of a wide one (double):
    what the built-in operators do when the template parameters ElementType and Scalar differ
    (e.g. "init += v1(k) * v2(k)", blas1_dot.hpp:104). *)
From Coq Require Import ZArith Reals.
From Flocq Require Import Core.Core IEEE754.BinarySingleNaN.
From Verif Require Import Scalar Norm Ieee.

Section Mixed.
Variables prec emax prec' emax' : Z.
Context (Hp : Prec_gt_0 prec) (He : Prec_lt_emax prec emax) (Hp' : Prec_gt_0 prec') (He' : Prec_lt_emax prec' emax').
Notation narrow := (binary_float prec emax).
Notation wide := (binary_float prec' emax').

(** Conversion to the wide type, as in the usual arithmetic conversions (C++ [conv.fpprom], [expr.arith.conv]). *)
Definition widen (x : narrow) : wide :=
  match x with
  | B754_zero s => B754_zero s
  | B754_infinity s => B754_infinity s
  | B754_nan => B754_nan
  | B754_finite s m e _ => binary_normalize prec' emax' Hp' He' mode_NE (cond_Zopp s (Zpos m)) e s
  end.

(** A value together with its C++ type. *)
Inductive value := Narrow (x : narrow) | Wide (x : wide).
Definition to_wide (v : value) : wide := match v with Narrow x => widen x | Wide y => y end.
(** A binary operator: in the narrow type if both operands have it, else in the wide type. *)
Definition arith (opn : narrow -> narrow -> narrow) (opw : wide -> wide -> wide) (a b : value) : value :=
  match a, b with Narrow x, Narrow y => Narrow (opn x y) | _, _ => Wide (opw (to_wide a) (to_wide b)) end.

(** Element type for views of which some hold narrow and some wide numbers; a value-initialised accumulator or output
    element ("ElementType_y{}", blas2_matrix_vector_product.hpp:302) is wide.  Simplification: results are
    stored in wide elements only, so no conversion to the narrow type takes place. *)
Definition mixed_ops : ops :=
  @Ops value (Wide (B754_zero false)) (Wide (Bone (prec_gt_0_ := Hp') (prec_lt_emax_ := He')))
    (arith (Bplus mode_NE) (Bplus mode_NE)) (arith (Bminus mode_NE) (Bminus mode_NE))
    (arith (Bmult mode_NE) (Bmult mode_NE)) (arith (Bdiv mode_NE) (Bdiv mode_NE)) (fun x => x) (fun x => x).

(** Magnitudes of narrow elements used with a wide Scalar: abs in the narrow type, then conversion
    (blas1_vector_abs_sum.hpp:97, blas1_vector_sum_of_squares.hpp:107-120). *)
Definition mixed_mags : mags (ieee_ops prec emax Hp He) (ieee_r prec' emax' Hp' He') :=
  @Mags (ieee_ops prec emax Hp He) (ieee_r prec' emax' Hp' He') true (fun x => widen (Babs x)) widen (fun _ => B754_zero false).
End Mixed.
Arguments Narrow {prec emax prec' emax'}. Arguments Wide {prec emax prec' emax'}.

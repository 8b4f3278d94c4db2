(** Complex numbers over IEEE-754 binary floating-point arithmetic: what std::complex<float> and std::complex<double>
    do as element types. *)
From Coq Require Import ZArith Reals Bool.
From Flocq Require Import Core.Core IEEE754.BinarySingleNaN.
From Verif Require Import Scalar Norm Ieee.

Section IeeeC.
Variables prec emax : Z.
Context (Hp : Prec_gt_0 prec) (He : Prec_lt_emax prec emax).
Definition cfl : Type := (binary_float prec emax * binary_float prec emax)%type.
(** [recover] is what a product falls back to when both parts come out as NaN (C Annex G asks for an attempt to
    recover an infinity); [cdiv] is the complex division of the C++ library. Neither is part of /repo. *)
Variables recover cdiv : cfl -> cfl -> cfl.

(** (a + bi)(c + di) = (ac - bd) + (ad + bc)i, each operation rounded on its own.  The products that use it:
    blas1_dot.hpp:104, blas2_matrix_vector_product.hpp:304, 423, 793-806, blas2_matrix_rank_1_update.hpp:648. *)
Definition cmul_plain (x y : cfl) : cfl :=
  (Bminus mode_NE (Bmult mode_NE (fst x) (fst y)) (Bmult mode_NE (snd x) (snd y)),
   Bplus mode_NE (Bmult mode_NE (fst x) (snd y)) (Bmult mode_NE (snd x) (fst y))).
Definition cmul (x y : cfl) : cfl :=
  let p := cmul_plain x y in if is_nan (fst p) && is_nan (snd p) then recover x y else p.
Definition cadd (x y : cfl) : cfl := (Bplus mode_NE (fst x) (fst y), Bplus mode_NE (snd x) (snd y)).
Definition csub (x y : cfl) : cfl := (Bminus mode_NE (fst x) (fst y), Bminus mode_NE (snd x) (snd y)).
(** conj (conj_if_needed.hpp:71-94) and the real part as an element (real_if_needed.hpp:63-88).  Simplified: a real
    number times a complex number is the product with zero imaginary part; for finite results that is the same number
    up to the sign of zeros. *)
Definition cconj (x : cfl) : cfl := (fst x, Bopp (snd x)).
Definition cre (x : cfl) : cfl := (fst x, B754_zero false).
Definition ieee_c : ops :=
  @Ops cfl (B754_zero false, B754_zero false) (Bone (prec_gt_0_ := Hp) (prec_lt_emax_ := He), B754_zero false)
    cadd csub cmul cdiv cconj cre.
End IeeeC.

(** Complex numbers whose parts are computed in contracted arithmetic. *)
From Coq Require Import ZArith Reals Bool.
From Flocq Require Import Core.Core IEEE754.BinarySingleNaN.
From Verif Require Import Scalar Ieee Fma Trace.

(** A complex number with parts of type [P], and whether it is a number of the real type, as real_if_needed returns
    (real_if_needed.hpp:63-88). *)
Record cx (P : ops) := Cx { part_re : P; part_im : P; is_real : bool }.
Arguments Cx {P}. Arguments part_re {P}. Arguments part_im {P}. Arguments is_real {P}.

Section CxOps.
Variables (P : ops) (opposite : P -> P) (recover divide : cx P -> cx P -> cx P -> cx P).
(** std::complex sums, differences and products, part by part; a real factor multiplies both parts.  [recover x y p] is
    what becomes of the product p of x and y, cf. [recover] in IeeeC.v.  Uses: blas1_dot.hpp:104,
    blas2_matrix_vector_product.hpp:304, 423, 793-806, blas2_matrix_rank_1_update.hpp:648.  Simplified: a real number
    plus a complex one is their sum with zero imaginary part (differs in the sign of zeros). *)
Definition cx_add (x y : cx P) : cx P := Cx (add (part_re x) (part_re y)) (add (part_im x) (part_im y)) false.
(** x - y (blas2_matrix_vector_solve.hpp:95, 167), as above *)
Definition cx_sub (x y : cx P) : cx P := Cx (sub (part_re x) (part_re y)) (sub (part_im x) (part_im y)) false.
(** x * y, as above *)
Definition cx_mul (x y : cx P) : cx P :=
  if is_real x then Cx (mul (part_re x) (part_re y)) (mul (part_re x) (part_im y)) false
  else if is_real y then Cx (mul (part_re x) (part_re y)) (mul (part_im x) (part_re y)) false
  else recover x y
    (Cx (sub (mul (part_re x) (part_re y)) (mul (part_im x) (part_im y)))
        (add (mul (part_re x) (part_im y)) (mul (part_im x) (part_re y))) false).
(** conj (conj_if_needed.hpp:71-94) and real (real_if_needed.hpp:63-88) *)
Definition cx_conj (x : cx P) : cx P := Cx (part_re x) (opposite (part_im x)) (is_real x).
(** real (real_if_needed.hpp:63-88): a number of the real type *)
Definition cx_re (x : cx P) : cx P := Cx (part_re x) zero true.
(** The element type; division is the one of the C++ library (not in /repo). *)
Definition cx_ops : ops :=
  @Ops (cx P) (Cx zero zero false) (Cx one zero false) cx_add cx_sub cx_mul
    (fun x y => divide x y (Cx zero zero false)) cx_conj cx_re.
End CxOps.

Section FmaC.
Variables prec emax : Z.
Context (Hp : Prec_gt_0 prec) (He : Prec_lt_emax prec emax).
Notation fl := (binary_float prec emax).

(** * All contractions: parts are sets of possible values (Fma.v) *)
(** -x, also of a pending product (std::conj, conj_if_needed.hpp:71-94) *)
Definition c_opp (a : poss prec emax) : poss prec emax := Poss _ _ (fun r => val a (Bopp r)) (fun x y => pend a (Bopp x) y).
(** A part that may be a NaN may be any number that is not finite: this covers every way of recovering infinities (not in code). *)
Definition widen (a : poss prec emax) : poss prec emax :=
  Poss _ _ (fun r => val a r \/ ((exists q, val a q /\ is_nan q = true) /\ is_finite r = false)) (pend a).
(** What becomes of a product of complex numbers: either part may be recovered (not in code). *)
Definition fma_recover (x y p : cx (fma_ops prec emax Hp He)) : cx (fma_ops prec emax Hp He) :=
  @Cx (fma_ops prec emax Hp He) (widen (part_re p)) (widen (part_im p)) false.
(** Element type in which anything may be fused; the error bounds do not use the division. *)
Definition fma_cx_ops : ops := cx_ops (fma_ops prec emax Hp He) c_opp fma_recover (fun _ _ z => z).

(** * Contraction chosen place by place: parts remember how they were computed (Trace.v) *)
Variable fuse : opcode -> hist -> hist -> bool * bool.
Notation T := (traced_ops prec emax Hp He fuse).
(** -x; its history is that of x (not in code) *)
Definition t_opp (a : traced prec emax) : traced prec emax :=
  Traced _ _ (Bopp (value a)) (match product a with Some (x, y) => Some (Bopp x, y) | None => None end)
    (history a).
(** A product with two NaN parts is replaced by [inf x y] (C Annex G; not in /repo) *)
Variable inf : cx T -> cx T -> fl * fl.
(** The product, with infinities recovered; both parts keep their histories (not in code). *)
Definition t_recover (x y p : cx T) : cx T :=
  if is_nan (value (part_re p : traced prec emax)) && is_nan (value (part_im p : traced prec emax))
  then @Cx T (Traced _ _ (fst (inf x y)) None (history (part_re p : traced prec emax)))
             (Traced _ _ (snd (inf x y)) None (history (part_im p : traced prec emax))) false
  else @Cx T (part_re p) (part_im p) false.
(** Element type in which [fuse] decides; the error bounds do not use the division. *)
Definition traced_cx_ops : ops := cx_ops T t_opp t_recover (fun _ _ z => z).
End FmaC.
(** An input: no choice (not in code) *)
Definition cexactly {prec emax} {Hp : Prec_gt_0 prec} {He : Prec_lt_emax prec emax} (v : binary_float prec emax * binary_float prec emax) :
  cx (fma_ops prec emax Hp He) := @Cx (fma_ops prec emax Hp He) (exactly (fst v)) (exactly (snd v)) false.

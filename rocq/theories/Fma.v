(** IEEE arithmetic in which the compiler may contract multiplications and additions. *)
From Coq Require Import ZArith Reals Bool.
From Flocq Require Import Core.Core IEEE754.BinarySingleNaN.
From Verif Require Import Scalar Ieee.

Section Fma.
Variables prec emax : Z.
Context (Hp : Prec_gt_0 prec) (He : Prec_lt_emax prec emax).
Notation fl := (binary_float prec emax).

(** What an expression of type float or double may evaluate to: numbers [val], and, when its last operation is a
    multiplication x*y, the pairs [pend] x, y that a later addition may use unrounded (fused multiply-add).  The
    source (e.g. z(i) += A(i,j) * x(j), blas2_matrix_vector_product.hpp:423) leaves the choice to the compiler (C++
    [expr.pre]/6; -ffp-contract), which may make it differently at each place and, with -ffp-contract=fast, across
    statements: a pending product survives being stored.  Sets of possible results over-approximate that: different
    uses of one element may choose differently. *)
Record poss := Poss { val : fl -> Prop; pend : fl -> fl -> Prop }.
(** No choice: an input (not in code) *)
Definition exactly (v : fl) : poss := Poss (eq v) (fun _ _ => False).
(** a + b: rounded sum of the values, or fma with the product on either side (blas2_matrix_vector_product.hpp:304,
    blas1_dot.hpp:104) *)
Definition c_add (a b : poss) : poss :=
  Poss (fun r =>
    (exists x y, val a x /\ val b y /\ r = Bplus mode_NE x y) \/
    (exists x1 x2 y, pend a x1 x2 /\ val b y /\ r = Bfma mode_NE x1 x2 y) \/
    (exists x y1 y2, val a x /\ pend b y1 y2 /\ r = Bfma mode_NE y1 y2 x)) (fun _ _ => False).
(** a - b: also x1*x2 - y and x - y1*y2 (blas2_matrix_vector_solve.hpp:95) *)
Definition c_sub (a b : poss) : poss :=
  Poss (fun r =>
    (exists x y, val a x /\ val b y /\ r = Bminus mode_NE x y) \/
    (exists x1 x2 y, pend a x1 x2 /\ val b y /\ r = Bfma mode_NE x1 x2 (Bopp y)) \/
    (exists x y1 y2, val a x /\ pend b y1 y2 /\ r = Bfma mode_NE (Bopp y1) y2 x)) (fun _ _ => False).
(** a * b: rounded, or left pending *)
Definition c_mul (a b : poss) : poss :=
  Poss (fun r => exists x y, val a x /\ val b y /\ r = Bmult mode_NE x y) (fun x y => val a x /\ val b y).
(** a / b: rounded *)
Definition c_div (a b : poss) : poss :=
  Poss (fun r => exists x y, val a x /\ val b y /\ r = Bdiv mode_NE x y) (fun _ _ => False).
(** As element type of the algorithms; conj and real do nothing for it (conj_if_needed.hpp:71-92,
    real_if_needed.hpp:63-88). *)
Definition fma_ops : ops :=
  @Ops poss (exactly (B754_zero false)) (exactly (Bone (prec_gt_0_ := Hp) (prec_lt_emax_ := He))) c_add c_sub c_mul c_div
    (fun a => a) (fun a => a).

(** A compiler that decides from the operands: elements are numbers with the pair last multiplied, if any; [pick]
    says for which sums and differences the pending product of the left (first component) or else of the right
    operand is fused (not in code). *)
Definition pending : Type := fl * option (fl * fl).
Definition p_add (pick : pending -> pending -> bool * bool) (a b : pending) : pending :=
  (match snd a, snd b, pick a b with
   | Some (x1, x2), _, (true, _) => Bfma mode_NE x1 x2 (fst b)
   | _, Some (y1, y2), (_, true) => Bfma mode_NE y1 y2 (fst a)
   | _, _, _ => Bplus mode_NE (fst a) (fst b)
   end, None).
Definition p_sub (pick : pending -> pending -> bool * bool) (a b : pending) : pending :=
  (match snd a, snd b, pick a b with
   | Some (x1, x2), _, (true, _) => Bfma mode_NE x1 x2 (Bopp (fst b))
   | _, Some (y1, y2), (_, true) => Bfma mode_NE (Bopp y1) y2 (fst a)
   | _, _, _ => Bminus mode_NE (fst a) (fst b)
   end, None).
Definition pick_ops (pick : pending -> pending -> bool * bool) : ops :=
  @Ops pending (B754_zero false, None) (Bone (prec_gt_0_ := Hp) (prec_lt_emax_ := He), None) (p_add pick) (p_sub pick)
    (fun a b => (Bmult mode_NE (fst a) (fst b), Some (fst a, fst b))) (fun a b => (Bdiv mode_NE (fst a) (fst b), None))
    (fun a => a) (fun a => a).
End Fma.
Arguments val {prec emax}.
Arguments pend {prec emax}.
Arguments exactly {prec emax}.

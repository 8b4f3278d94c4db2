(** IEEE arithmetic with contraction chosen place by place: elements remember how they were computed. *)
From Coq Require Import ZArith Reals Bool.
From Flocq Require Import Core.Core IEEE754.BinarySingleNaN.
From Verif Require Import Scalar Ieee.

Section Trace.
Variables prec emax : Z.
Context (Hp : Prec_gt_0 prec) (He : Prec_lt_emax prec emax).
Notation fl := (binary_float prec emax).

(** How a number came about: an input (numbered arbitrarily, e.g. by its address), a constant, or an operation (not in code). *)
Inductive opcode := OAdd | OSub | OMul | ODiv.
Inductive hist := Input (n : nat) | Const (n : nat) | Node (o : opcode) (l r : hist).
(** A number, the pair last multiplied if its last operation is a multiplication, and its history (not in code). *)
Record traced := Traced { value : fl; product : option (fl * fl); history : hist }.
Definition input (n : nat) (v : fl) : traced := Traced v None (Input n).

(** a + b and a - b: a pending product of the left (first component of [fuse]) or else of the right operand is fused if
    [fuse] says so for the two histories.  The source leaves this choice to the compiler at each place
    (blas2_matrix_vector_solve.hpp:95, blas1_dot.hpp:104; C++ [expr.pre]/6); different places have different histories. *)
Definition t_add (fuse : opcode -> hist -> hist -> bool * bool) (a b : traced) : traced :=
  Traced (match product a, product b, fuse OAdd (history a) (history b) with
          | Some (x1, x2), _, (true, _) => Bfma mode_NE x1 x2 (value b)
          | _, Some (y1, y2), (_, true) => Bfma mode_NE y1 y2 (value a)
          | _, _, _ => Bplus mode_NE (value a) (value b)
          end) None (Node OAdd (history a) (history b)).
Definition t_sub (fuse : opcode -> hist -> hist -> bool * bool) (a b : traced) : traced :=
  Traced (match product a, product b, fuse OSub (history a) (history b) with
          | Some (x1, x2), _, (true, _) => Bfma mode_NE x1 x2 (Bopp (value b))
          | _, Some (y1, y2), (_, true) => Bfma mode_NE (Bopp y1) y2 (value a)
          | _, _, _ => Bminus mode_NE (value a) (value b)
          end) None (Node OSub (history a) (history b)).
(** As element type of the algorithms; conj and real do nothing for it (conj_if_needed.hpp:71-92, real_if_needed.hpp:63-88). *)
Definition traced_ops (fuse : opcode -> hist -> hist -> bool * bool) : ops :=
  @Ops traced (Traced (B754_zero false) None (Const 0)) (Traced (Bone (prec_gt_0_ := Hp) (prec_lt_emax_ := He)) None (Const 1))
    (t_add fuse) (t_sub fuse)
    (fun a b => Traced (Bmult mode_NE (value a) (value b)) (Some (value a, value b)) (Node OMul (history a) (history b)))
    (fun a b => Traced (Bdiv mode_NE (value a) (value b)) None (Node ODiv (history a) (history b)))
    (fun a => a) (fun a => a).
End Trace.
Arguments value {prec emax}.
Arguments product {prec emax}.
Arguments history {prec emax}.
Arguments input {prec emax}.

(** Element access with the offset computed in the index type of the mdspan (C92).
    mdspan converts each index to its index type and calls the mapping, e.g. for "v1(k)" (blas1_dot.hpp:104) and "A(i,j)"
    (blas2_matrix_vector_product.hpp:419); the mappings of layout_left, layout_right, layout_stride and the padded layouts
    are those of the mdspan reference implementation (not in /repo), that of layout_transpose is transposed.hpp:132-138.
    Paths are relative to /repo/include/experimental/__p1673_bits/. *)
From Coq Require Import ZArith Arith Bool.
From Verif Require Import Mem Scalar View Ints.
Local Open Scope Z_scope.

(** x * y and x + y for operands of index type T: in the promoted type, undefined on signed overflow.  Used by the mappings
    that the accesses of blas2_matrix_vector_product.hpp:419 call. *)
Definition imul (T : ikind) (x y : option Z) : option Z :=
  match x, y with
  | Some x, Some y => result_in (promote T) (wrap_to (promote T) x * wrap_to (promote T) y)
  | _, _ => None
  end.
Definition iadd (T : ikind) (x y : option Z) : option Z :=
  match x, y with
  | Some x, Some y => result_in (promote T) (wrap_to (promote T) x + wrap_to (promote T) y)
  | _, _ => None
  end.
(** An extent or stride, of type T, transposed.hpp:104-105 *)
Definition num (n : nat) : option Z := Some (Z.of_nat n).

(** mapping::operator()(i, j), i and j of type T; the result is converted to T.  layout_transpose: transposed.hpp:132-138.
    A user-defined layout is left alone. *)
Fixpoint index_off (T : ikind) (l : layout) (e0 e1 : nat) (i j : option Z) : option Z :=
  option_map (wrap_to T)
    match l with
    | LLeft => iadd T i (imul T (num e0) j)
    | LRight => iadd T (imul T i (num e1)) j
    | LStride s0 s1 => iadd T (imul T i (num s0)) (imul T j (num s1))
    | LLeftPad ld => iadd T i (imul T (num ld) j)
    | LRightPad ld => iadd T (imul T i (num ld)) j
    | LTrans l' => index_off T l' e1 e0 j i
    | LUser f => match i, j with Some i, Some j => num (f (Z.to_nat i) (Z.to_nat j)) | _, _ => None end
    end.
(** The same for a rank-1 view: contiguous (layout_left, layout_right) or layout_stride, as in "v1(k)", blas1_dot.hpp:104 *)
Inductive vlayout := VContiguous | VStrided (s : nat).
Definition vindex_off (T : ikind) (l : vlayout) (i : option Z) : option Z :=
  option_map (wrap_to T) match l with VContiguous => i | VStrided s => imul T i (num s) end.

(** mdspan::operator()(i, j): the indices, numbers of any type, converted to T; the offset passed to the accessor, whose
    access function takes a size_t (scaled.hpp:86, conjugated.hpp:79).  If the offset is undefined: any number [u]. *)
Definition to_address (z : option Z) (u : nat) : nat :=
  match z with Some z => Z.to_nat (wrap_to (IK false 64) z) | None => u end.
Definition index_in (T : ikind) (i : nat) : option Z := Some (wrap_to T (Z.of_nat i)).

(** A matrix or vector whose elements are accessed in this way, e.g. blas2_matrix_vector_product.hpp:419 *)
Definition indexed_m {O : ops} (T : ikind) (u : nat -> nat -> nat) (A : mat O) : mat O :=
  Mat (mbase A) (ext0 A) (ext1 A)
    (LUser (fun i j => to_address (index_off T (mlay A) (ext0 A) (ext1 A) (index_in T i) (index_in T j)) (u i j))) (macc A).
Definition indexed_v {O : ops} (T : ikind) (l : vlayout) (u : nat -> nat) (x : vec O) : vec O :=
  Vec (vbase x) (vext x) (fun i => to_address (vindex_off T l (index_in T i)) (u i)) (vacc x).

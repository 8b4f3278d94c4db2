(** BLAS-1 style algorithms that do not need a magnitude type: copy, swap_elements, scale, add,
    dot, dotc, vector_idx_abs_max, apply_givens_rotation.  The inline (sequential) implementations.
    Paths are relative to /repo/include/experimental/__p1673_bits/. *)
From Coq Require Import List Arith NArith Lia Bool.
From Verif Require Import Mem Scalar View.
Import ListNotations.
Set Implicit Arguments.
Local Open Scope sc_scope.
Local Open Scope prog_scope.

Section Blas1.
Context {O : ops}.

(** blas1_linalg_copy.hpp:63-74 (copy_rank_1) *)
Definition copy_1 (x y : vec O) : prog O unit :=
  for_range 0 (vext y) (fun i =>
    let! v := vget x i in vset y i v).

(** blas1_linalg_copy.hpp:88-104 (copy_rank_2) *)
Definition copy_2 (x y : mat O) : prog O unit :=
  for_range 0 (ext1 y) (fun j =>
    for_range 0 (ext0 y) (fun i =>
      let! v := mget x i j in mset y i j v)).

(** blas1_linalg_swap.hpp:65-79 (swap_rank_1); std::swap(a,b) is tmp=a; a=b; b=tmp. *)
Definition swap_1 (x y : vec O) : prog O unit :=
  for_range 0 (vext y) (fun i =>
    let! tmp := vget x i in
    let! b := vget y i in
    vset x i b ;; vset y i tmp).

(** blas1_linalg_swap.hpp:93-112 (swap_rank_2) *)
Definition swap_2 (x y : mat O) : prog O unit :=
  for_range 0 (ext1 y) (fun j =>
    for_range 0 (ext0 y) (fun i =>
      let! tmp := mget x i j in
      let! b := mget y i j in
      mset x i j b ;; mset y i j tmp)).

(** blas1_scale.hpp:59-66 (linalg_scale_rank_1) *)
Definition scale_1 (alpha : O) (x : vec O) : prog O unit :=
  for_range 0 (vext x) (fun i =>
    let! v := vget x i in vset x i (v * alpha)).

(** blas1_scale.hpp:75-84 (linalg_scale_rank_2) *)
Definition scale_2 (alpha : O) (A : mat O) : prog O unit :=
  for_range 0 (ext1 A) (fun j =>
    for_range 0 (ext0 A) (fun i =>
      let! v := mget A i j in mset A i j (v * alpha))).

(** blas1_linalg_add.hpp:68-87 (add_rank_1); the loop runs over z.extent(0). *)
Definition add_1 (x y z : vec O) : prog O unit :=
  for_range 0 (vext z) (fun i =>
    let! a := vget x i in
    let! b := vget y i in
    vset z i (a + b)).

(** blas1_linalg_add.hpp:107-138 (add_rank_2); the loops run over the extents of x. *)
Definition add_2 (x y z : mat O) : prog O unit :=
  for_range 0 (ext1 x) (fun j =>
    for_range 0 (ext0 x) (fun i =>
      let! a := mget x i j in
      let! b := mget y i j in
      mset z i j (a + b))).

(** blas1_dot.hpp:92-107: init += v1(k) * v2(k) for k < v1.extent(0). *)
Definition dot (v1 v2 : vec O) (init : O) : prog O O :=
  fold_range 0 (vext v1) (fun k acc =>
    let! a := vget v1 k in
    let! b := vget v2 k in
    Ret (acc + a * b)) init.

(** blas1_dot.hpp:172-178: dot(conjugated(v1), v2, init). *)
Definition dotc (fix_nc noncomplex : bool) (v1 v2 : vec O) (init : O) : prog O O :=
  dot (conjugated_v fix_nc noncomplex v1) v2 init.

(** blas1_dot.hpp:234-241: dot(v1, v2, return_t{}). *)
Definition dot_noinit (v1 v2 : vec O) : prog O O := dot v1 v2 zero.
(** blas1_dot.hpp:274-281: dotc(v1, v2, return_t{}). *)
Definition dotc_noinit (fix_nc noncomplex : bool) (v1 v2 : vec O) : prog O O :=
  dotc fix_nc noncomplex v1 v2 zero.

(** blas1_vector_idx_abs_max.hpp:75-117.  [mag] is abs for arithmetic types (88-99) and
    abs_if_needed(real_if_needed(.)) + abs_if_needed(imag_if_needed(.)) otherwise (100-116);
    [ltb] is the < of the magnitude type; [size_max] is numeric_limits<SizeType>::max().
    The element is read again in the arithmetic branch (93); the second read of the same cell is
    merged with the first. *)
Definition vector_idx_abs_max {M : Type} (mag : O -> M) (ltb : M -> M -> bool) (size_max : N)
    (v : vec O) : prog O N :=
  if vext v =? 0 then Ret size_max
  else
    let! v0 := vget v 0 in
    let! r := fold_range 1 (vext v) (fun i acc =>
                let (maxInd, maxVal) := (acc : nat * M) in
                let! vi := vget v i in
                Ret (if ltb maxVal (mag vi) then (i, mag vi) else (maxInd, maxVal)))
              (0, mag v0) in
    Ret (N.of_nat (fst r)).

(** blas1_givens.hpp:388-406: real c and s. *)
Definition apply_givens_rotation (x y : vec O) (c s : O) : prog O unit :=
  for_range 0 (vext x) (fun i =>
    let! xi := vget x i in
    let! yi := vget y i in
    let dtemp := c * xi + s * yi in
    let! yi' := vget y i in
    let! xi' := vget x i in
    vset y i (c * yi' - s * xi') ;;
    vset x i dtemp).

(** blas1_givens.hpp:483-502: complex s; y(i) = c*y(i) - conj(s)*x(i). *)
Definition apply_givens_rotation_c (x y : vec O) (c s : O) : prog O unit :=
  for_range 0 (vext x) (fun i =>
    let! xi := vget x i in
    let! yi := vget y i in
    let dtemp := c * xi + s * yi in
    let! yi' := vget y i in
    let! xi' := vget x i in
    vset y i (c * yi' - conj s * xi') ;;
    vset x i dtemp).

End Blas1.

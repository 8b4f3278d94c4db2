(** BLAS-3 algorithms, inline (sequential) implementations.
    Paths are relative to /repo/include/experimental/__p1673_bits/. *)
From Coq Require Import List Arith ZArith Lia Bool.
From Verif Require Import Mem Scalar View Spec Idx Blas2.
Import ListNotations.
Set Implicit Arguments.
Local Open Scope sc_scope.
Local Open Scope prog_scope.

(** left_side_t and right_side_t, layout_tags.hpp:71-74 *)
Inductive side := LeftSide | RightSide.

Section Blas3.
Context {O : ops}.

(** * General products *)

(** blas3_matrix_product.hpp:723-730 *)
Definition matrix_product (A B C : mat O) : prog O unit :=
  for_range 0 (ext0 C) (fun i =>
    for_range 0 (ext1 C) (fun j =>
      mset C i j zero ;;
      for_range 0 (ext1 A) (fun k =>
        let! a := mget A i k in let! b := mget B k j in macc_add C i j (a * b)))).

(** blas3_matrix_product.hpp:811-818 *)
Definition matrix_product_upd (A B E C : mat O) : prog O unit :=
  for_range 0 (ext0 C) (fun i =>
    for_range 0 (ext1 C) (fun j =>
      (let! e := mget E i j in mset C i j e) ;;
      for_range 0 (ext1 A) (fun k =>
        let! a := mget A i k in let! b := mget B k j in macc_add C i j (a * b)))).

(** * Triangular products *)

(** [const ptrdiff_t k_upper = explicitDiagonal ? i : i - ptrdiff_t(1)]
    (blas3_matrix_product.hpp:914, 1040): arithmetic in the common type of size_type and ptrdiff_t, then
    conversion to ptrdiff_t. *)
Definition k_upper (ty : ity) (d : diagonal) (i : nat) : Z :=
  wrap I64 (wrap (with_ptrdiff ty) (if is_explicit d then Z.of_nat i else Z.of_nat i - 1)).
(** [const size_type k_lower = explicitDiagonal ? i : i + 1] (blas3_matrix_product.hpp:928, 1026). *)
Definition k_lower (ty : ity) (d : diagonal) (i : nat) : Z :=
  wrap ty (if is_explicit d then Z.of_nat i else Z.of_nat i + 1).

(** blas3_matrix_product.hpp:910-937 (triangular matrix on the left).
    [ty] is the common size_type (906). *)
Definition triangular_matrix_product_left (ty : ity) (A : mat O) (t : triangle) (d : diagonal) (B C : mat O) : prog O unit :=
  match t with
  | Lower =>
      for_range 0 (ext1 C) (fun j =>
        for_range 0 (ext0 C) (fun i =>
          mset C i j zero ;;
          for_range 0 (Z.to_nat (k_upper ty d i + 1)) (fun k =>
            let! a := mget A i k in let! b := mget B k j in macc_add C i j (a * b)) ;;
          when (negb (is_explicit d)) (let! b := mget B i j in macc_add C i j b)))
  | Upper =>
      for_range 0 (ext1 C) (fun j =>
        for_range 0 (ext0 C) (fun i =>
          mset C i j zero ;;
          from_index (k_lower ty d i) (fun lo =>
          for_range lo (ext0 C) (fun k =>
            let! a := mget A i k in let! b := mget B k j in macc_add C i j (a * b))) ;;
          when (negb (is_explicit d)) (let! b := mget B i j in macc_add C i j b)))
  end.

(** blas3_matrix_product.hpp:1024-1051 (triangular matrix on the right). *)
Definition triangular_matrix_product_right (ty : ity) (B A : mat O) (t : triangle) (d : diagonal) (C : mat O) : prog O unit :=
  match t with
  | Lower =>
      for_range 0 (ext1 C) (fun j =>
        for_range 0 (ext0 C) (fun i =>
          mset C i j zero ;;
          from_index (k_lower ty d j) (fun lo =>
          for_range lo (ext1 C) (fun k =>
            let! b := mget B i k in let! a := mget A k j in macc_add C i j (b * a))) ;;
          when (negb (is_explicit d)) (let! b := mget B i j in macc_add C i j b)))
  | Upper =>
      for_range 0 (ext1 C) (fun j =>
        for_range 0 (ext0 C) (fun i =>
          mset C i j zero ;;
          for_range 0 (Z.to_nat (k_upper ty d j + 1)) (fun k =>
            let! b := mget B i k in let! a := mget A k j in macc_add C i j (b * a)) ;;
          when (negb (is_explicit d)) (let! b := mget B i j in macc_add C i j b)))
  end.

(** blas3_matrix_product.hpp:1136-1159 (in place, left).  [for (k = extent; k > 0; --k)] with uses of k-1 is
    [for_down] over k-1; the inner loop starts at (k-1)+1. *)
Definition triangular_matrix_left_product (A : mat O) (t : triangle) (d : diagonal) (C : mat O) : prog O unit :=
  match t with
  | Upper =>
      for_range 0 (ext1 C) (fun j =>
        for_range 0 (ext0 C) (fun k =>
          for_range 0 k (fun i =>
            let! a := mget A i k in let! c := mget C k j in macc_add C i j (a * c)) ;;
          when (is_explicit d)
            (let! a := mget A k k in let! c := mget C k j in mset C k j (a * c))))
  | Lower =>
      for_range 0 (ext1 C) (fun j =>
        for_down (ext0 C) (fun k =>
          for_range (k + 1) (ext0 C) (fun i =>
            let! a := mget A i k in let! c := mget C k j in macc_add C i j (a * c)) ;;
          when (is_explicit d)
            (let! a := mget A k k in let! c := mget C k j in mset C k j (a * c))))
  end.

(** blas3_matrix_product.hpp:1230-1257 (in place, right). *)
Definition triangular_matrix_right_product (A : mat O) (t : triangle) (d : diagonal) (C : mat O) : prog O unit :=
  match t with
  | Upper =>
      for_down (ext1 C) (fun j =>
        when (is_explicit d)
          (for_range 0 (ext0 C) (fun i =>
             let! c := mget C i j in let! a := mget A j j in mset C i j (c * a))) ;;
        for_range 0 j (fun k =>
          for_range 0 (ext0 C) (fun i =>
            let! c := mget C i k in let! a := mget A k j in macc_add C i j (c * a))))
  | Lower =>
      for_range 0 (ext1 C) (fun j =>
        when (is_explicit d)
          (for_range 0 (ext0 C) (fun i =>
             let! c := mget C i j in let! a := mget A j j in mset C i j (c * a))) ;;
        for_range (j + 1) (ext1 C) (fun k =>
          for_range 0 (ext0 C) (fun i =>
            let! c := mget C i k in let! a := mget A k j in macc_add C i j (c * a))))
  end.

(** * Symmetric and Hermitian products *)

(** blas3_matrix_product.hpp:1332-1353 (left) *)
Definition symmetric_matrix_product_left (A : mat O) (t : triangle) (B C : mat O) : prog O unit :=
  for_range 0 (ext1 C) (fun j =>
    for_range 0 (ext0 C) (fun i =>
      mset C i j zero ;;
      for_range 0 (ext1 A) (fun k =>
        let! aik := (if match t with Lower => i <=? k | Upper => k <=? i end
                     then mget A k i else mget A i k) in
        let! b := mget B k j in macc_add C i j (aik * b)))).

(** blas3_matrix_product.hpp:1435-1456 (right) *)
Definition symmetric_matrix_product_right (B A : mat O) (t : triangle) (C : mat O) : prog O unit :=
  for_range 0 (ext1 C) (fun j =>
    for_range 0 (ext0 C) (fun i =>
      mset C i j zero ;;
      for_range 0 (ext1 A) (fun k =>
        let! akj := (if match t with Lower => j <=? k | Upper => k <=? j end
                     then mget A k j else mget A j k) in
        let! b := mget B i k in macc_add C i j (b * akj)))).

(** The updating overloads: blas3_matrix_product.hpp:1541 (symmetric left), 1635 (symmetric right),
    1940 (hermitian left), 2034 (hermitian right): the body is assert(false). *)
Definition symmetric_matrix_product_left_upd (A : mat O) (t : triangle) (B E C : mat O) : prog O unit :=
  Fail AssertFailed.
Definition symmetric_matrix_product_right_upd (B A : mat O) (t : triangle) (E C : mat O) : prog O unit :=
  Fail AssertFailed.
Definition hermitian_matrix_product_left_upd (A : mat O) (t : triangle) (B E C : mat O) : prog O unit :=
  Fail AssertFailed.
Definition hermitian_matrix_product_right_upd (B A : mat O) (t : triangle) (E C : mat O) : prog O unit :=
  Fail AssertFailed.
(** The same bodies when NDEBUG is defined: assert expands to nothing, the function returns without
    doing anything. *)
Definition updating_stub_ndebug : prog O unit := Ret tt.

(** blas3_matrix_product.hpp:1726-1753 (left); the last loop of the lower case is bounded by
    A.extent(0) (1736), that of the upper case by A.extent(1) (1749). *)
Definition hermitian_matrix_product_left (A : mat O) (t : triangle) (B C : mat O) : prog O unit :=
  match t with
  | Lower =>
      for_range 0 (ext1 C) (fun j =>
        for_range 0 (ext0 C) (fun i =>
          mset C i j zero ;;
          for_range 0 i (fun k =>
            let! a := mget A i k in let! b := mget B k j in macc_add C i j (a * b)) ;;
          (let! a := mget A i i in let! b := mget B i j in macc_add C i j (re a * b)) ;;
          for_range (i + 1) (ext0 A) (fun k =>
            let! a := mget A k i in let! b := mget B k j in macc_add C i j (conj a * b))))
  | Upper =>
      for_range 0 (ext1 C) (fun j =>
        for_range 0 (ext0 C) (fun i =>
          mset C i j zero ;;
          for_range 0 i (fun k =>
            let! a := mget A k i in let! b := mget B k j in macc_add C i j (conj a * b)) ;;
          (let! a := mget A i i in let! b := mget B i j in macc_add C i j (re a * b)) ;;
          for_range (i + 1) (ext1 A) (fun k =>
            let! a := mget A i k in let! b := mget B k j in macc_add C i j (a * b))))
  end.

(** blas3_matrix_product.hpp:1834-1855 (right); the diagonal is used as stored. *)
Definition hermitian_matrix_product_right (B A : mat O) (t : triangle) (C : mat O) : prog O unit :=
  for_range 0 (ext1 C) (fun j =>
    for_range 0 (ext0 C) (fun i =>
      mset C i j zero ;;
      for_range 0 (ext1 A) (fun k =>
        let! akj := (if match t with Lower => j <=? k | Upper => k <=? j end
                     then mget A k j
                     else (let! a := mget A j k in Ret (conj a))) in
        let! b := mget B i k in macc_add C i j (b * akj)))).

(** * Rank-k and rank-2k updates *)

(** blas3_matrix_rank_k_update.hpp:154-162 *)
Definition symmetric_matrix_rank_k_update_alpha (alpha : O) (A C : mat O) (t : triangle) : prog O unit :=
  for_range 0 (ext1 C) (fun j =>
    for_range (tri_lo t j) (tri_hi t (ext0 C) j) (fun i =>
      for_range 0 (ext1 A) (fun k =>
        let! aik := mget A i k in let! ajk := mget A j k in macc_add C i j (alpha * aik * ajk)))).
(** blas3_matrix_rank_k_update.hpp:254-262 *)
Definition symmetric_matrix_rank_k_update (A C : mat O) (t : triangle) : prog O unit :=
  for_range 0 (ext1 C) (fun j =>
    for_range (tri_lo t j) (tri_hi t (ext0 C) j) (fun i =>
      for_range 0 (ext1 A) (fun k =>
        let! aik := mget A i k in let! ajk := mget A j k in macc_add C i j (aik * ajk)))).
(** blas3_matrix_rank_k_update.hpp:355-364; C(j,j) = real_if_needed(C(j,j)) first (358). *)
Definition hermitian_matrix_rank_k_update_alpha (alpha : O) (A C : mat O) (t : triangle) : prog O unit :=
  for_range 0 (ext1 C) (fun j =>
    make_real C j ;;
    for_range (tri_lo t j) (tri_hi t (ext0 C) j) (fun i =>
      for_range 0 (ext1 A) (fun k =>
        let! aik := mget A i k in let! ajk := mget A j k in macc_add C i j (alpha * aik * conj ajk)))).
(** blas3_matrix_rank_k_update.hpp:458-467 *)
Definition hermitian_matrix_rank_k_update (A C : mat O) (t : triangle) : prog O unit :=
  for_range 0 (ext1 C) (fun j =>
    make_real C j ;;
    for_range (tri_lo t j) (tri_hi t (ext0 C) j) (fun i =>
      for_range 0 (ext1 A) (fun k =>
        let! aik := mget A i k in let! ajk := mget A j k in macc_add C i j (aik * conj ajk)))).
(** blas3_matrix_rank_2k_update.hpp:119-127 *)
Definition symmetric_matrix_rank_2k_update (A B C : mat O) (t : triangle) : prog O unit :=
  for_range 0 (ext1 C) (fun j =>
    for_range (tri_lo t j) (tri_hi t (ext0 C) j) (fun i =>
      for_range 0 (ext1 A) (fun k =>
        let! aik := mget A i k in let! bjk := mget B j k in
        let! bik := mget B i k in let! ajk := mget A j k in
        macc_add C i j (aik * bjk + bik * ajk)))).
(** blas3_matrix_rank_2k_update.hpp:211-220 *)
Definition hermitian_matrix_rank_2k_update (A B C : mat O) (t : triangle) : prog O unit :=
  for_range 0 (ext1 C) (fun j =>
    make_real C j ;;
    for_range (tri_lo t j) (tri_hi t (ext0 C) j) (fun i =>
      for_range 0 (ext1 A) (fun k =>
        let! aik := mget A i k in let! bjk := mget B j k in
        let! bik := mget B i k in let! ajk := mget A j k in
        macc_add C i j (aik * conj bjk + bik * conj ajk)))).

(** * Triangular solves with several right-hand sides *)

(** blas3_triangular_matrix_matrix_solve.hpp:72-93 (upper, left); [ptrdiff_t i = A_num_rows - 1] (76),
    [size_type j = i + 1] (83). *)
Definition trsm_upper_left (ty : ity) (A : mat O) (d : diagonal) (B X : mat O) : prog O unit :=
  for_range 0 (ext1 B) (fun k =>
    for_down (Z.to_nat (descending_start ty (ext0 A) + 1)) (fun i =>
      let! b := mget B i k in
      let! t := from_index (wrap ty (Z.of_nat i + 1)) (fun lo =>
                fold_range lo (ext0 A) (fun j t =>
                  let! aij := mget A i j in let! xj := mget X j k in Ret (t - aij * xj)) b) in
      if is_explicit d then let! aii := mget A i i in mset X i k (t / aii)
      else mset X i k t)).

(** blas3_triangular_matrix_matrix_solve.hpp:115-131 (lower, left) *)
Definition trsm_lower_left (A : mat O) (d : diagonal) (B X : mat O) : prog O unit :=
  for_range 0 (ext1 B) (fun k =>
    for_range 0 (ext0 A) (fun i =>
      let! b := mget B i k in
      let! t := fold_range 0 i (fun j t =>
                  let! aij := mget A i j in let! xj := mget X j k in Ret (t - aij * xj)) b in
      if is_explicit d then let! aii := mget A i i in mset X i k (t / aii)
      else mset X i k t)).

(** blas3_triangular_matrix_matrix_solve.hpp:153-167 (upper, right) *)
Definition trsm_upper_right (A : mat O) (d : diagonal) (B X : mat O) : prog O unit :=
  for_range 0 (ext0 B) (fun i =>
    for_range 0 (ext1 A) (fun j =>
      let! b := mget B i j in
      let! t := fold_range 0 j (fun k t =>
                  let! xk := mget X i k in let! akj := mget A k j in Ret (t - xk * akj)) b in
      if is_explicit d then let! ajj := mget A j j in mset X i j (t / ajj)
      else mset X i j t)).

(** Initial value of [signed_index_type j = A_num_cols - 1] (191), where A_num_cols is A.extent(1)
    converted to make_signed_t<size_type> (188). *)
Definition descending_start_signed (ty : ity) (n : nat) : Z :=
  wrap (make_signed ty) (wrap (promote (make_signed ty)) (wrap (make_signed ty) (Z.of_nat n) - 1)).

(** blas3_triangular_matrix_matrix_solve.hpp:187-205 (lower, right); [size_type k = j + 1] (194). *)
Definition trsm_lower_right (ty : ity) (A : mat O) (d : diagonal) (B X : mat O) : prog O unit :=
  for_range 0 (ext0 B) (fun i =>
    for_down (Z.to_nat (descending_start_signed ty (ext1 A) + 1)) (fun j =>
      let! b := mget B i j in
      let! t := from_index (wrap ty (Z.of_nat j + 1)) (fun lo =>
                fold_range lo (ext0 A) (fun k t =>
                  let! xk := mget X i k in let! akj := mget A k j in Ret (t - xk * akj)) b) in
      if is_explicit d then let! ajj := mget A j j in mset X i j (t / ajj)
      else mset X i j t)).

(** blas3_triangular_matrix_matrix_solve.hpp:297-302 *)
Definition triangular_matrix_matrix_left_solve (ty : ity) (A : mat O) (t : triangle) (d : diagonal) (B X : mat O) : prog O unit :=
  match t with
  | Lower => trsm_lower_left A d B X
  | Upper => trsm_upper_left ty A d B X
  end.
(** blas3_triangular_matrix_matrix_solve.hpp:366-371 *)
Definition triangular_matrix_matrix_right_solve (ty : ity) (A : mat O) (t : triangle) (d : diagonal) (B X : mat O) : prog O unit :=
  match t with
  | Lower => trsm_lower_right ty A d B X
  | Upper => trsm_upper_right A d B X
  end.
(** blas3_triangular_matrix_matrix_solve.hpp:428-443; left_side_t, right_side_t: layout_tags.hpp:71-74 *)
Definition triangular_matrix_matrix_solve (ty : ity) (A : mat O) (t : triangle) (d : diagonal) (s : side) (B X : mat O) : prog O unit :=
  match s with
  | LeftSide => triangular_matrix_matrix_left_solve ty A t d B X
  | RightSide => triangular_matrix_matrix_right_solve ty A t d B X
  end.

End Blas3.

(** The inline algorithms with the loop counters of the source: of the common type of the index types of the arguments,
    incremented and compared as C++ does (C84).  Generated from Blas1.v, Blas2.v, Blas3.v and Norm.v, whose citations apply;
    only the loops differ.  Paths are relative to /repo/include/experimental/__p1673_bits/.
    The indices passed to the views are not converted to the index types of the views (mdspan does that). *)
From Coq Require Import List Arith NArith ZArith Bool.
From Verif Require Import Mem Scalar View Spec Idx Ints Blas1 Blas2 Blas3 Norm.
Import ListNotations.
Set Implicit Arguments.
Local Open Scope Z_scope.

(** std::common_type_t<s, t>: the type itself if equal (no promotion), else that of arithmetic *)
Definition common_type (s t : ikind) : ikind := if ikind_eqb s t then s else common s t.
(** std::common_type_t<t, ...>, blas1_linalg_add.hpp:83 *)
Definition common_types (t : ikind) (l : list ikind) : ikind := fold_left common_type l t.
(** extents<IndexType, ...>::size_type, blas2_matrix_vector_product.hpp:417 *)
Definition make_unsigned (t : ikind) : ikind := IK false (iwidth t).
(** The types of Idx.v *)
Definition kind_of (t : ity) : ikind := IK (is_signed t) (bits t).

(** An integer expression: its value, [None] if undefined (overflow) *)
Definition at_ (n : nat) : option Z := Some (Z.of_nat n).
(** ++i and i + size_type(1), converted to type T, blas2_matrix_vector_product.hpp:541, 1057 *)
Definition inc (T : ikind) (i : Z) : option Z :=
  option_map (wrap_to T) (result_in (common T (IK true 32)) (wrap_to (common T (IK true 32)) i + 1)).
Definition succ_ (T : ikind) (j : nat) : option Z := inc T (Z.of_nat j).
(** --i *)
Definition dec (T : ikind) (i : Z) : option Z :=
  option_map (wrap_to T) (result_in (common T (IK true 32)) (wrap_to (common T (IK true 32)) i - 1)).
(** An extent converted to the counter type, e.g. blas2_matrix_vector_solve.hpp:81-82 *)
Definition conv_ (T : ikind) (n : nat) : option Z := Some (wrap_to T (Z.of_nat n)).
(** i < n, i of type T and n of type U, after the usual arithmetic conversions *)
Definition less (T U : ikind) (i n : Z) : bool := wrap_to (common T U) i <? wrap_to (common T U) n.
(** size_type j = A.extent(1) - (k + size_type(1)), blas2_matrix_vector_product.hpp:1335 *)
Definition mirror_ (T U : ikind) (n k : nat) : option Z :=
  match result_in (promote T) (wrap_to (promote T) (Z.of_nat k) + wrap_to (promote T) 1) with
  | Some k1 => option_map (wrap_to T) (result_in (common U (promote T)) (wrap_to (common U (promote T)) (Z.of_nat n) - wrap_to (common U (promote T)) k1))
  | None => None
  end.

Section Counted.
Context {O : ops}.
(** Bound on the number of iterations of a loop; used up: [OutOfFuel] *)
Variable fuel : nat.

(** Use of an index: undefined or negative ones are undefined behaviour *)
Definition with_ {A} (z : option Z) (k : nat -> prog O A) : prog O A :=
  match z with Some z => from_index z k | None => Fail OutOfBounds end.

(** for (T i = lo; i < hi; ++i) acc = body(i, acc) *)
Fixpoint c_loop {A} (fuel : nat) (T U : ikind) (i n : Z) (body : nat -> A -> prog O A) (acc : A) : prog O A :=
  match fuel with
  | 0%nat => Fail OutOfFuel
  | S f =>
      if less T U i n then
        bind (from_index i (fun i => body i acc)) (fun acc =>
        match inc T i with Some i => c_loop f T U i n body acc | None => Fail OutOfBounds end)
      else Ret acc
  end.
Definition c_fold {A} (T : ikind) (lo : option Z) (hi : ikind * option Z) (body : nat -> A -> prog O A) (acc : A) : prog O A :=
  match lo, hi with
  | Some i, (U, Some n) => c_loop fuel T U i n body acc
  | _, _ => Fail OutOfBounds
  end.
Definition c_for (T : ikind) (lo : option Z) (hi : ikind * option Z) (body : nat -> prog O unit) : prog O unit :=
  c_fold T lo hi (fun i _ => body i) tt.
(** for (T i = 0; i <= j; ++i) body(i), j of type T, blas2_matrix_rank_1_update.hpp:331 *)
Fixpoint c_loop_le (fuel : nat) (T : ikind) (i j : Z) (body : nat -> prog O unit) : prog O unit :=
  match fuel with
  | 0%nat => Fail OutOfFuel
  | S f =>
      if less T T j i then Ret tt
      else bind (from_index i body) (fun _ =>
        match inc T i with Some i => c_loop_le f T i j body | None => Fail OutOfBounds end)
  end.
(** for (T k = n; k > 0; --k) body(k - 1), blas3_matrix_product.hpp:1150, 1231 *)
Fixpoint c_loop_down (fuel : nat) (T : ikind) (k : Z) (body : nat -> prog O unit) : prog O unit :=
  match fuel with
  | 0%nat => Fail OutOfFuel
  | S f =>
      if less (IK true 32) T 0 k then
        bind (with_ (dec T k) body) (fun _ =>
        match dec T k with Some k => c_loop_down f T k body | None => Fail OutOfBounds end)
      else Ret tt
  end.
Definition c_for_down (T : ikind) (hi : ikind * option Z) (body : nat -> prog O unit) : prog O unit :=
  match snd hi with Some n => c_loop_down fuel T (wrap_to T n) body | None => Fail OutOfBounds end.
(** for (ptrdiff_t k = 0; k <= k_upper; ++k) body(k), blas3_matrix_product.hpp:915, 1043 *)
Definition c_for_ptrdiff (k_upper : Z) (body : nat -> prog O unit) : prog O unit :=
  c_loop_le fuel (IK true 64) 0 k_upper body.
(** Loop over the rows of column j of a triangle, blas2_matrix_rank_1_update.hpp:324, 331 (and 431/438, 538/546, 647/655) *)
Definition c_triangle_column (T tA : ikind) (n : nat) (t : triangle) (j : nat) (body : nat -> prog O unit) : prog O unit :=
  match t with
  | Lower => c_for T (at_ j) (tA, at_ n) body
  | Upper => c_loop_le fuel T 0 (Z.of_nat j) body
  end.

Local Open Scope nat_scope.
Local Open Scope sc_scope.
Local Open Scope prog_scope.

(** copy_1, counters as in blas1_linalg_copy.hpp:70 *)
Definition c_copy_1 (tx ty : ikind) (x y : vec O) : prog O unit :=
  let T := common_types tx [ty] in
  c_for T (at_ 0) (ty, at_ (vext y)) (fun i =>
    let! v := vget x i in vset y i v).

(** copy_2, counters as in blas1_linalg_copy.hpp:98 *)
Definition c_copy_2 (tx ty : ikind) (x y : mat O) : prog O unit :=
  let T := common_types tx [ty] in
  c_for T (at_ 0) (ty, at_ (ext1 y)) (fun j =>
    c_for T (at_ 0) (ty, at_ (ext0 y)) (fun i =>
      let! v := mget x i j in mset y i j v)).

(** swap_1, counters as in blas1_linalg_swap.hpp:74 *)
Definition c_swap_1 (tx ty : ikind) (x y : vec O) : prog O unit :=
  let T := common_types tx [ty] in
  c_for T (at_ 0) (ty, at_ (vext y)) (fun i =>
    let! tmp := vget x i in
    let! b := vget y i in
    vset x i b ;; vset y i tmp).

(** swap_2, counters as in blas1_linalg_swap.hpp:105 *)
Definition c_swap_2 (tx ty : ikind) (x y : mat O) : prog O unit :=
  let T := common_types tx [ty] in
  c_for T (at_ 0) (ty, at_ (ext1 y)) (fun j =>
    c_for T (at_ 0) (ty, at_ (ext0 y)) (fun i =>
      let! tmp := mget x i j in
      let! b := mget y i j in
      mset x i j b ;; mset y i j tmp)).

(** scale_1, counters as in blas1_scale.hpp:63 *)
Definition c_scale_1 (tx : ikind) (alpha : O) (x : vec O) : prog O unit :=
  let T := common_types tx [] in
  c_for T (at_ 0) (tx, at_ (vext x)) (fun i =>
    let! v := vget x i in vset x i (v * alpha)).

(** scale_2, counters as in blas1_scale.hpp:79-80 *)
Definition c_scale_2 (tA : ikind) (alpha : O) (A : mat O) : prog O unit :=
  let T := common_types tA [] in
  c_for T (at_ 0) (tA, at_ (ext1 A)) (fun j =>
    c_for T (at_ 0) (tA, at_ (ext0 A)) (fun i =>
      let! v := mget A i j in mset A i j (v * alpha))).

(** add_1, counters as in blas1_linalg_add.hpp:83 *)
Definition c_add_1 (tx ty tz : ikind) (x y z : vec O) : prog O unit :=
  let T := common_types tx [ty; tz] in
  c_for T (at_ 0) (tz, at_ (vext z)) (fun i =>
    let! a := vget x i in
    let! b := vget y i in
    vset z i (a + b)).

(** add_2, counters as in blas1_linalg_add.hpp:132 *)
Definition c_add_2 (tx ty tz : ikind) (x y z : mat O) : prog O unit :=
  let T := common_types tx [ty; tz] in
  c_for T (at_ 0) (tx, at_ (ext1 x)) (fun j =>
    c_for T (at_ 0) (tx, at_ (ext0 x)) (fun i =>
      let! a := mget x i j in
      let! b := mget y i j in
      mset z i j (a + b))).

(** dot, counters as in blas1_dot.hpp:102 *)
Definition c_dot (tv1 tv2 : ikind) (v1 v2 : vec O) (init : O) : prog O O :=
  let T := common_types tv1 [tv2] in
  c_fold T (at_ 0) (tv1, at_ (vext v1)) (fun k acc =>
    let! a := vget v1 k in
    let! b := vget v2 k in
    Ret (acc + a * b)) init.

(** vector_idx_abs_max, counters as in blas1_vector_idx_abs_max.hpp:91, 105 *)
Definition c_vector_idx_abs_max {M : Type} (tv : ikind) (mag : O -> M) (ltb : M -> M -> bool) (size_max : N)
    (v : vec O) : prog O N :=
  let T := common_types tv [] in
  if vext v =? 0 then Ret size_max
  else
    let! v0 := vget v 0 in
    let! r := c_fold T (at_ 1) (tv, at_ (vext v)) (fun i acc =>
                let (maxInd, maxVal) := (acc : nat * M) in
                let! vi := vget v i in
                Ret (if ltb maxVal (mag vi) then (i, mag vi) else (maxInd, maxVal)))
              (0, mag v0) in
    Ret (N.of_nat (fst r)).

(** apply_givens_rotation, counters as in blas1_givens.hpp:399-401; the bound is converted to the type of the counter *)
Definition c_apply_givens_rotation (tx ty : ikind) (x y : vec O) (c s : O) : prog O unit :=
  let T := common_types tx [ty] in
  c_for T (at_ 0) (T, conv_ T (vext x)) (fun i =>
    let! xi := vget x i in
    let! yi := vget y i in
    let dtemp := c * xi + s * yi in
    let! yi' := vget y i in
    let! xi' := vget x i in
    vset y i (c * yi' - s * xi') ;;
    vset x i dtemp).

(** apply_givens_rotation_c, counters as in blas1_givens.hpp:495-497; the bound is converted to the type of the counter *)
Definition c_apply_givens_rotation_c (tx ty : ikind) (x y : vec O) (c s : O) : prog O unit :=
  let T := common_types tx [ty] in
  c_for T (at_ 0) (T, conv_ T (vext x)) (fun i =>
    let! xi := vget x i in
    let! yi := vget y i in
    let dtemp := c * xi + s * yi in
    let! yi' := vget y i in
    let! xi' := vget x i in
    vset y i (c * yi' - conj s * xi') ;;
    vset x i dtemp).

(** matrix_vector_product, counters as in blas2_matrix_vector_product.hpp:297-300 *)
Definition c_matrix_vector_product (tA tx ty : ikind) (A : mat O) (x y : vec O) : prog O unit :=
  let T := common_types tA [tx; ty] in
  c_for T (at_ 0) (tA, at_ (ext0 A)) (fun i =>
    vset y i zero ;;
    c_for T (at_ 0) (tA, at_ (ext1 A)) (fun j =>
      let! a := mget A i j in
      let! xj := vget x j in
      vacc_add y i (a * xj))).

(** matrix_vector_product_upd, counters as in blas2_matrix_vector_product.hpp:415-419; for A the unsigned size_type of its extents *)
Definition c_matrix_vector_product_upd (tA tx ty tz : ikind) (A : mat O) (x y z : vec O) : prog O unit :=
  let T := common_types (make_unsigned tA) [tx; ty; tz] in
  c_for T (at_ 0) (tA, at_ (ext0 A)) (fun i =>
    (let! yi := vget y i in vset z i yi) ;;
    c_for T (at_ 0) (tA, at_ (ext1 A)) (fun j =>
      let! a := mget A i j in
      let! xj := vget x j in
      vacc_add z i (a * xj))).

(** tri_mv_loop, with the counter type of the caller *)
Definition c_tri_mv_loop (T tA : ikind) (fd fc : O -> O) (A : mat O) (t : triangle) (x y : vec O) : prog O unit :=
  match t with
  | Lower =>
      c_for T (at_ 0) (tA, at_ (ext1 A)) (fun j =>
        (let! ajj := mget A j j in let! xj := vget x j in vacc_add y j (fd ajj * xj)) ;;
        c_for T (succ_ T j) (tA, at_ (ext0 A)) (fun i =>
          let! aij := mget A i j in
          (let! xj := vget x j in vacc_add y i (aij * xj)) ;;
          (let! xi := vget x i in vacc_add y j (fc aij * xi))))
  | Upper =>
      c_for T (at_ 0) (tA, at_ (ext1 A)) (fun j =>
        c_for T (at_ 0) (T, at_ j) (fun i =>
          let! aij := mget A i j in
          (let! xj := vget x j in vacc_add y i (aij * xj)) ;;
          (let! xi := vget x i in vacc_add y j (fc aij * xi))) ;;
        (let! ajj := mget A j j in let! xj := vget x j in vacc_add y j (fd ajj * xj)))
  end.

(** zero_rows, with the counter type of the caller *)
Definition c_zero_rows (T tA : ikind) (A : mat O) (y : vec O) : prog O unit :=
  c_for T (at_ 0) (tA, at_ (ext0 A)) (fun i => vset y i zero).

(** copy_rows, with the counter type of the caller *)
Definition c_copy_rows (T tA : ikind) (A : mat O) (y z : vec O) : prog O unit :=
  c_for T (at_ 0) (tA, at_ (ext0 A)) (fun i => let! yi := vget y i in vset z i yi).

(** symmetric_matrix_vector_product, counters as in blas2_matrix_vector_product.hpp:530-532 *)
Definition c_symmetric_matrix_vector_product (tA tx ty : ikind) (A : mat O) (t : triangle) (x y : vec O) : prog O unit :=
  let T := common_types tA [tx; ty] in
  c_zero_rows T tA A y ;; c_tri_mv_loop T tA (fun v => v) (fun v => v) A t x y.

(** symmetric_matrix_vector_product_upd, counters as in blas2_matrix_vector_product.hpp:651-656 *)
Definition c_symmetric_matrix_vector_product_upd (tA tx ty tz : ikind) (A : mat O) (t : triangle) (x y z : vec O) : prog O unit :=
  let T := common_types (make_unsigned tA) [tx; ty; make_unsigned tz] in
  c_copy_rows T tA A y z ;; c_tri_mv_loop T tA (fun v => v) (fun v => v) A t x z.

(** hermitian_matrix_vector_product, counters as in blas2_matrix_vector_product.hpp:783-785 *)
Definition c_hermitian_matrix_vector_product (tA tx ty : ikind) (A : mat O) (t : triangle) (x y : vec O) : prog O unit :=
  let T := common_types tA [tx; ty] in
  c_zero_rows T tA A y ;; c_tri_mv_loop T tA re conj A t x y.

(** hermitian_matrix_vector_product_upd, counters as in blas2_matrix_vector_product.hpp:911-916 *)
Definition c_hermitian_matrix_vector_product_upd (tA tx ty tz : ikind) (A : mat O) (t : triangle) (x y z : vec O) : prog O unit :=
  let T := common_types (make_unsigned tA) [tx; ty; make_unsigned tz] in
  c_copy_rows T tA A y z ;; c_tri_mv_loop T tA re conj A t x z.

(** trmv_loop, with the counter type of the caller *)
Definition c_trmv_loop (T tA : ikind) (A : mat O) (t : triangle) (d : diagonal) (x y : vec O) : prog O unit :=
  match t with
  | Lower =>
      c_for T (at_ 0) (tA, at_ (ext1 A)) (fun j =>
        c_for T (if is_explicit d then at_ j else succ_ T j) (tA, at_ (ext0 A)) (fun i =>
          let! aij := mget A i j in let! xj := vget x j in vacc_add y i (aij * xj)) ;;
        when (negb (is_explicit d))
          (let! yj := vget y j in let! xj := vget x j in vset y j (yj + xj)))
  | Upper =>
      c_for T (at_ 0) (tA, at_ (ext1 A)) (fun j =>
        c_for T (at_ 0) (T, if is_explicit d then succ_ T j else at_ j) (fun i =>
          let! aij := mget A i j in let! xj := vget x j in vacc_add y i (aij * xj)) ;;
        when (negb (is_explicit d))
          (let! yj := vget y j in let! xj := vget x j in vset y j (yj + xj)))
  end.

(** triangular_matrix_vector_product, counters as in blas2_matrix_vector_product.hpp:1045-1047 *)
Definition c_triangular_matrix_vector_product (tA tx ty : ikind) (A : mat O) (t : triangle) (d : diagonal) (x y : vec O) : prog O unit :=
  let T := common_types tA [tx; ty] in
  c_zero_rows T tA A y ;; c_trmv_loop T tA A t d x y.

(** triangular_matrix_vector_product_upd, counters as in blas2_matrix_vector_product.hpp:1186-1192 *)
Definition c_triangular_matrix_vector_product_upd (tA tx ty tz : ikind) (A : mat O) (t : triangle) (d : diagonal) (x y z : vec O) : prog O unit :=
  let T := common_types (make_unsigned tA) [tx; make_unsigned ty; make_unsigned tz] in
  c_copy_rows T tA A y z ;; c_trmv_loop T tA A t d x z.

(** triangular_matrix_vector_product_inplace, counters as in blas2_matrix_vector_product.hpp:1329 *)
Definition c_triangular_matrix_vector_product_inplace (tA ty : ikind) (A : mat O) (t : triangle) (d : diagonal) (y : vec O) : prog O unit :=
  let T := common_types tA [ty] in
  match t with
  | Lower =>
      c_for T (at_ 0) (tA, at_ (ext1 A)) (fun k => with_ (mirror_ T tA (ext1 A) k) (fun j =>
        let! tmp := vget y j in
        c_for T (succ_ T j) (tA, at_ (ext0 A)) (fun i =>
          let! aij := mget A i j in vacc_add y i (aij * tmp)) ;;
        when (is_explicit d)
          (let! yj := vget y j in let! ajj := mget A j j in vset y j (yj * ajj))))
  | Upper =>
      c_for T (at_ 0) (tA, at_ (ext1 A)) (fun j =>
        let! tmp := vget y j in
        c_for T (at_ 0) (T, at_ j) (fun i =>
          let! aij := mget A i j in vacc_add y i (aij * tmp)) ;;
        when (is_explicit d)
          (let! yj := vget y j in let! ajj := mget A j j in vset y j (yj * ajj)))
  end.

(** trsv_upper, counters as in blas2_matrix_vector_solve.hpp:79-82, 94 *)
Definition c_trsv_upper  (ty : ity) (divide : O -> O -> O) (A : mat O) (d : diagonal) (B X : vec O) : prog O unit :=
  let T := kind_of ty in
  for_down (Z.to_nat (descending_start ty (ext0 A) + 1)) (fun i =>
    let! b := vget B i in
    let! t := from_index (wrap ty (Z.of_nat i + 1)) (fun lo =>
              c_fold T (at_ lo) (T, conv_ T (ext1 A)) (fun j t =>
                let! aij := mget A i j in let! xj := vget X j in Ret (t - aij * xj)) b) in
    if is_explicit d then let! aii := mget A i i in vset X i (divide t aii)
    else vset X i t).

(** trsv_lower, counters as in blas2_matrix_vector_solve.hpp:154-166 *)
Definition c_trsv_lower (ty : ity) (divide : O -> O -> O) (A : mat O) (d : diagonal) (B X : vec O) : prog O unit :=
  let T := kind_of ty in
  c_for T (at_ 0) (T, conv_ T (ext0 A)) (fun i =>
    let! b := vget B i in
    let! t := c_fold T (at_ 0) (T, at_ i) (fun j t =>
                let! aij := mget A i j in let! xj := vget X j in Ret (t - aij * xj)) b in
    if is_explicit d then let! aii := mget A i i in vset X i (divide t aii)
    else vset X i t).

(** matrix_rank_1_update, counters as in blas2_matrix_rank_1_update.hpp:183 *)
Definition c_matrix_rank_1_update (tx ty tA : ikind) (x y : vec O) (A : mat O) : prog O unit :=
  let T := common_types tx [ty; tA] in
  c_for T (at_ 0) (tA, at_ (ext0 A)) (fun i =>
    c_for T (at_ 0) (tA, at_ (ext1 A)) (fun j =>
      let! xi := vget x i in let! yj := vget y j in macc_add A i j (xi * yj))).

(** symmetric_matrix_rank_1_update_alpha, counters as in blas2_matrix_rank_1_update.hpp:320 *)
Definition c_symmetric_matrix_rank_1_update_alpha (tx tA : ikind) (alpha : O) (x : vec O) (A : mat O) (t : triangle) : prog O unit :=
  let T := common_types tx [tA] in
  c_for T (at_ 0) (tA, at_ (ext1 A)) (fun j =>
    c_triangle_column T tA (ext0 A) t j (fun i =>
      let! xi := vget x i in let! xj := vget x j in macc_add A i j (alpha * xi * xj))).

(** symmetric_matrix_rank_1_update, counters as in blas2_matrix_rank_1_update.hpp:427 *)
Definition c_symmetric_matrix_rank_1_update (tx tA : ikind) (x : vec O) (A : mat O) (t : triangle) : prog O unit :=
  let T := common_types tx [tA] in
  c_for T (at_ 0) (tA, at_ (ext1 A)) (fun j =>
    c_triangle_column T tA (ext0 A) t j (fun i =>
      let! xi := vget x i in let! xj := vget x j in macc_add A i j (xi * xj))).

(** hermitian_matrix_rank_1_update_alpha, counters as in blas2_matrix_rank_1_update.hpp:533 *)
Definition c_hermitian_matrix_rank_1_update_alpha (tx tA : ikind) (alpha : O) (x : vec O) (A : mat O) (t : triangle) : prog O unit :=
  let T := common_types tx [tA] in
  c_for T (at_ 0) (tA, at_ (ext1 A)) (fun j =>
    make_real A j ;;
    c_triangle_column T tA (ext0 A) t j (fun i =>
      let! xi := vget x i in let! xj := vget x j in macc_add A i j (alpha * xi * conj xj))).

(** hermitian_matrix_rank_1_update, counters as in blas2_matrix_rank_1_update.hpp:642 *)
Definition c_hermitian_matrix_rank_1_update (tx tA : ikind) (x : vec O) (A : mat O) (t : triangle) : prog O unit :=
  let T := common_types tx [tA] in
  c_for T (at_ 0) (tA, at_ (ext1 A)) (fun j =>
    make_real A j ;;
    c_triangle_column T tA (ext0 A) t j (fun i =>
      let! xi := vget x i in let! xj := vget x j in macc_add A i j (xi * conj xj))).

(** symmetric_matrix_rank_2_update, counters as in blas2_matrix_rank_2_update.hpp:121, 125-128 *)
Definition c_symmetric_matrix_rank_2_update (tx ty tA : ikind) (x y : vec O) (A : mat O) (t : triangle) : prog O unit :=
  let T := common_types tx [ty; tA] in
  c_for T (at_ 0) (tA, at_ (ext1 A)) (fun j =>
    c_for T (match t with Lower => at_ j | Upper => at_ 0 end) (T, match t with Lower => conv_ T (ext0 A) | Upper => succ_ T j end) (fun i =>
      let! xi := vget x i in let! yj := vget y j in
      let! yi := vget y i in let! xj := vget x j in
      macc_add A i j (xi * yj + yi * xj))).

(** hermitian_matrix_rank_2_update, counters as in blas2_matrix_rank_2_update.hpp:212, 217-221 *)
Definition c_hermitian_matrix_rank_2_update (tx ty tA : ikind) (x y : vec O) (A : mat O) (t : triangle) : prog O unit :=
  let T := common_types tx [ty; tA] in
  c_for T (at_ 0) (tA, at_ (ext1 A)) (fun j =>
    make_real A j ;;
    c_for T (match t with Lower => at_ j | Upper => at_ 0 end) (T, match t with Lower => conv_ T (ext0 A) | Upper => succ_ T j end) (fun i =>
      let! xi := vget x i in let! yj := vget y j in
      let! yi := vget y i in let! xj := vget x j in
      macc_add A i j (xi * conj yj + yi * conj xj))).

(** matrix_product, counters as in blas3_matrix_product.hpp:721 *)
Definition c_matrix_product (tA tB tC : ikind) (A B C : mat O) : prog O unit :=
  let T := common_types tA [tB; tC] in
  c_for T (at_ 0) (tC, at_ (ext0 C)) (fun i =>
    c_for T (at_ 0) (tC, at_ (ext1 C)) (fun j =>
      mset C i j zero ;;
      c_for T (at_ 0) (tA, at_ (ext1 A)) (fun k =>
        let! a := mget A i k in let! b := mget B k j in macc_add C i j (a * b)))).

(** matrix_product_upd, counters as in blas3_matrix_product.hpp:809 *)
Definition c_matrix_product_upd (tA tB tE tC : ikind) (A B E C : mat O) : prog O unit :=
  let T := common_types tA [tB; tE; tC] in
  c_for T (at_ 0) (tC, at_ (ext0 C)) (fun i =>
    c_for T (at_ 0) (tC, at_ (ext1 C)) (fun j =>
      (let! e := mget E i j in mset C i j e) ;;
      c_for T (at_ 0) (tA, at_ (ext1 A)) (fun k =>
        let! a := mget A i k in let! b := mget B k j in macc_add C i j (a * b)))).

(** triangular_matrix_product_left, counters as in blas3_matrix_product.hpp:906 *)
Definition c_triangular_matrix_product_left (tA tB tC : ikind) (ty : ity) (A : mat O) (t : triangle) (d : diagonal) (B C : mat O) : prog O unit :=
  let T := kind_of ty in
  match t with
  | Lower =>
      c_for T (at_ 0) (tC, at_ (ext1 C)) (fun j =>
        c_for T (at_ 0) (tC, at_ (ext0 C)) (fun i =>
          mset C i j zero ;;
          c_for_ptrdiff (k_upper ty d i) (fun k =>
            let! a := mget A i k in let! b := mget B k j in macc_add C i j (a * b)) ;;
          when (negb (is_explicit d)) (let! b := mget B i j in macc_add C i j b)))
  | Upper =>
      c_for T (at_ 0) (tC, at_ (ext1 C)) (fun j =>
        c_for T (at_ 0) (tC, at_ (ext0 C)) (fun i =>
          mset C i j zero ;;
          from_index (k_lower ty d i) (fun lo =>
          c_for T (at_ lo) (tC, at_ (ext0 C)) (fun k =>
            let! a := mget A i k in let! b := mget B k j in macc_add C i j (a * b))) ;;
          when (negb (is_explicit d)) (let! b := mget B i j in macc_add C i j b)))
  end.

(** triangular_matrix_product_right, counters as in blas3_matrix_product.hpp:1020 *)
Definition c_triangular_matrix_product_right (tB tA tC : ikind) (ty : ity) (B A : mat O) (t : triangle) (d : diagonal) (C : mat O) : prog O unit :=
  let T := kind_of ty in
  match t with
  | Lower =>
      c_for T (at_ 0) (tC, at_ (ext1 C)) (fun j =>
        c_for T (at_ 0) (tC, at_ (ext0 C)) (fun i =>
          mset C i j zero ;;
          from_index (k_lower ty d j) (fun lo =>
          c_for T (at_ lo) (tC, at_ (ext1 C)) (fun k =>
            let! b := mget B i k in let! a := mget A k j in macc_add C i j (b * a))) ;;
          when (negb (is_explicit d)) (let! b := mget B i j in macc_add C i j b)))
  | Upper =>
      c_for T (at_ 0) (tC, at_ (ext1 C)) (fun j =>
        c_for T (at_ 0) (tC, at_ (ext0 C)) (fun i =>
          mset C i j zero ;;
          c_for_ptrdiff (k_upper ty d j) (fun k =>
            let! b := mget B i k in let! a := mget A k j in macc_add C i j (b * a)) ;;
          when (negb (is_explicit d)) (let! b := mget B i j in macc_add C i j b)))
  end.

(** triangular_matrix_left_product, counters as in blas3_matrix_product.hpp:1132 *)
Definition c_triangular_matrix_left_product (tA tC : ikind) (A : mat O) (t : triangle) (d : diagonal) (C : mat O) : prog O unit :=
  let T := common_types tA [tC] in
  match t with
  | Upper =>
      c_for T (at_ 0) (tC, at_ (ext1 C)) (fun j =>
        c_for T (at_ 0) (tC, at_ (ext0 C)) (fun k =>
          c_for T (at_ 0) (T, at_ k) (fun i =>
            let! a := mget A i k in let! c := mget C k j in macc_add C i j (a * c)) ;;
          when (is_explicit d)
            (let! a := mget A k k in let! c := mget C k j in mset C k j (a * c))))
  | Lower =>
      c_for T (at_ 0) (tC, at_ (ext1 C)) (fun j =>
        c_for_down T (tC, at_ (ext0 C)) (fun k =>
          c_for T (at_ (k + 1)) (tC, at_ (ext0 C)) (fun i =>
            let! a := mget A i k in let! c := mget C k j in macc_add C i j (a * c)) ;;
          when (is_explicit d)
            (let! a := mget A k k in let! c := mget C k j in mset C k j (a * c))))
  end.

(** triangular_matrix_right_product, counters as in blas3_matrix_product.hpp:1226 *)
Definition c_triangular_matrix_right_product (tA tC : ikind) (A : mat O) (t : triangle) (d : diagonal) (C : mat O) : prog O unit :=
  let T := common_types tA [tC] in
  match t with
  | Upper =>
      c_for_down T (tC, at_ (ext1 C)) (fun j =>
        when (is_explicit d)
          (c_for T (at_ 0) (tC, at_ (ext0 C)) (fun i =>
             let! c := mget C i j in let! a := mget A j j in mset C i j (c * a))) ;;
        c_for T (at_ 0) (common T (IK true 32), at_ j) (fun k =>
          c_for T (at_ 0) (tC, at_ (ext0 C)) (fun i =>
            let! c := mget C i k in let! a := mget A k j in macc_add C i j (c * a))))
  | Lower =>
      c_for T (at_ 0) (tC, at_ (ext1 C)) (fun j =>
        when (is_explicit d)
          (c_for T (at_ 0) (tC, at_ (ext0 C)) (fun i =>
             let! c := mget C i j in let! a := mget A j j in mset C i j (c * a))) ;;
        c_for T (succ_ T j) (tC, at_ (ext1 C)) (fun k =>
          c_for T (at_ 0) (tC, at_ (ext0 C)) (fun i =>
            let! c := mget C i k in let! a := mget A k j in macc_add C i j (c * a))))
  end.

(** symmetric_matrix_product_left, counters as in blas3_matrix_product.hpp:1330 *)
Definition c_symmetric_matrix_product_left (tA tB tC : ikind) (A : mat O) (t : triangle) (B C : mat O) : prog O unit :=
  let T := common_types tA [tB; tC] in
  c_for T (at_ 0) (tC, at_ (ext1 C)) (fun j =>
    c_for T (at_ 0) (tC, at_ (ext0 C)) (fun i =>
      mset C i j zero ;;
      c_for T (at_ 0) (tA, at_ (ext1 A)) (fun k =>
        let! aik := (if match t with Lower => i <=? k | Upper => k <=? i end
                     then mget A k i else mget A i k) in
        let! b := mget B k j in macc_add C i j (aik * b)))).

(** symmetric_matrix_product_right, counters as in blas3_matrix_product.hpp:1433 *)
Definition c_symmetric_matrix_product_right (tB tA tC : ikind) (B A : mat O) (t : triangle) (C : mat O) : prog O unit :=
  let T := common_types tA [tB; tC] in
  c_for T (at_ 0) (tC, at_ (ext1 C)) (fun j =>
    c_for T (at_ 0) (tC, at_ (ext0 C)) (fun i =>
      mset C i j zero ;;
      c_for T (at_ 0) (tA, at_ (ext1 A)) (fun k =>
        let! akj := (if match t with Lower => j <=? k | Upper => k <=? j end
                     then mget A k j else mget A j k) in
        let! b := mget B i k in macc_add C i j (b * akj)))).

(** hermitian_matrix_product_left, counters as in blas3_matrix_product.hpp:1724 *)
Definition c_hermitian_matrix_product_left (tA tB tC : ikind) (A : mat O) (t : triangle) (B C : mat O) : prog O unit :=
  let T := common_types tA [tB; tC] in
  match t with
  | Lower =>
      c_for T (at_ 0) (tC, at_ (ext1 C)) (fun j =>
        c_for T (at_ 0) (tC, at_ (ext0 C)) (fun i =>
          mset C i j zero ;;
          c_for T (at_ 0) (T, at_ i) (fun k =>
            let! a := mget A i k in let! b := mget B k j in macc_add C i j (a * b)) ;;
          (let! a := mget A i i in let! b := mget B i j in macc_add C i j (re a * b)) ;;
          c_for T (succ_ T i) (tA, at_ (ext0 A)) (fun k =>
            let! a := mget A k i in let! b := mget B k j in macc_add C i j (conj a * b))))
  | Upper =>
      c_for T (at_ 0) (tC, at_ (ext1 C)) (fun j =>
        c_for T (at_ 0) (tC, at_ (ext0 C)) (fun i =>
          mset C i j zero ;;
          c_for T (at_ 0) (T, at_ i) (fun k =>
            let! a := mget A k i in let! b := mget B k j in macc_add C i j (conj a * b)) ;;
          (let! a := mget A i i in let! b := mget B i j in macc_add C i j (re a * b)) ;;
          c_for T (succ_ T i) (tA, at_ (ext1 A)) (fun k =>
            let! a := mget A i k in let! b := mget B k j in macc_add C i j (a * b))))
  end.

(** hermitian_matrix_product_right, counters as in blas3_matrix_product.hpp:1832 *)
Definition c_hermitian_matrix_product_right (tB tA tC : ikind) (B A : mat O) (t : triangle) (C : mat O) : prog O unit :=
  let T := common_types tA [tB; tC] in
  c_for T (at_ 0) (tC, at_ (ext1 C)) (fun j =>
    c_for T (at_ 0) (tC, at_ (ext0 C)) (fun i =>
      mset C i j zero ;;
      c_for T (at_ 0) (tA, at_ (ext1 A)) (fun k =>
        let! akj := (if match t with Lower => j <=? k | Upper => k <=? j end
                     then mget A k j
                     else (let! a := mget A j k in Ret (conj a))) in
        let! b := mget B i k in macc_add C i j (b * akj)))).

(** symmetric_matrix_rank_k_update_alpha, counters as in blas3_matrix_rank_k_update.hpp:152-157 *)
Definition c_symmetric_matrix_rank_k_update_alpha (tA tC : ikind) (alpha : O) (A C : mat O) (t : triangle) : prog O unit :=
  let T := common_types tA [tC] in
  c_for T (at_ 0) (tC, at_ (ext1 C)) (fun j =>
    c_for T (match t with Lower => at_ j | Upper => at_ 0 end) (T, match t with Lower => conv_ T (ext0 C) | Upper => succ_ T j end) (fun i =>
      c_for T (at_ 0) (tA, at_ (ext1 A)) (fun k =>
        let! aik := mget A i k in let! ajk := mget A j k in macc_add C i j (alpha * aik * ajk)))).

(** symmetric_matrix_rank_k_update, counters as in blas3_matrix_rank_k_update.hpp:252-257 *)
Definition c_symmetric_matrix_rank_k_update (tA tC : ikind) (A C : mat O) (t : triangle) : prog O unit :=
  let T := common_types tA [tC] in
  c_for T (at_ 0) (tC, at_ (ext1 C)) (fun j =>
    c_for T (match t with Lower => at_ j | Upper => at_ 0 end) (T, match t with Lower => conv_ T (ext0 C) | Upper => succ_ T j end) (fun i =>
      c_for T (at_ 0) (tA, at_ (ext1 A)) (fun k =>
        let! aik := mget A i k in let! ajk := mget A j k in macc_add C i j (aik * ajk)))).

(** hermitian_matrix_rank_k_update_alpha, counters as in blas3_matrix_rank_k_update.hpp:353-359 *)
Definition c_hermitian_matrix_rank_k_update_alpha (tA tC : ikind) (alpha : O) (A C : mat O) (t : triangle) : prog O unit :=
  let T := common_types tA [tC] in
  c_for T (at_ 0) (tC, at_ (ext1 C)) (fun j =>
    make_real C j ;;
    c_for T (match t with Lower => at_ j | Upper => at_ 0 end) (T, match t with Lower => conv_ T (ext0 C) | Upper => succ_ T j end) (fun i =>
      c_for T (at_ 0) (tA, at_ (ext1 A)) (fun k =>
        let! aik := mget A i k in let! ajk := mget A j k in macc_add C i j (alpha * aik * conj ajk)))).

(** hermitian_matrix_rank_k_update, counters as in blas3_matrix_rank_k_update.hpp:456-462 *)
Definition c_hermitian_matrix_rank_k_update (tA tC : ikind) (A C : mat O) (t : triangle) : prog O unit :=
  let T := common_types tA [tC] in
  c_for T (at_ 0) (tC, at_ (ext1 C)) (fun j =>
    make_real C j ;;
    c_for T (match t with Lower => at_ j | Upper => at_ 0 end) (T, match t with Lower => conv_ T (ext0 C) | Upper => succ_ T j end) (fun i =>
      c_for T (at_ 0) (tA, at_ (ext1 A)) (fun k =>
        let! aik := mget A i k in let! ajk := mget A j k in macc_add C i j (aik * conj ajk)))).

(** symmetric_matrix_rank_2k_update, counters as in blas3_matrix_rank_2k_update.hpp:117-122 *)
Definition c_symmetric_matrix_rank_2k_update (tA tB tC : ikind) (A B C : mat O) (t : triangle) : prog O unit :=
  let T := common_types tA [tB; tC] in
  c_for T (at_ 0) (tC, at_ (ext1 C)) (fun j =>
    c_for T (match t with Lower => at_ j | Upper => at_ 0 end) (T, match t with Lower => conv_ T (ext0 C) | Upper => succ_ T j end) (fun i =>
      c_for T (at_ 0) (tA, at_ (ext1 A)) (fun k =>
        let! aik := mget A i k in let! bjk := mget B j k in
        let! bik := mget B i k in let! ajk := mget A j k in
        macc_add C i j (aik * bjk + bik * ajk)))).

(** hermitian_matrix_rank_2k_update, counters as in blas3_matrix_rank_2k_update.hpp:209-215 *)
Definition c_hermitian_matrix_rank_2k_update (tA tB tC : ikind) (A B C : mat O) (t : triangle) : prog O unit :=
  let T := common_types tA [tB; tC] in
  c_for T (at_ 0) (tC, at_ (ext1 C)) (fun j =>
    make_real C j ;;
    c_for T (match t with Lower => at_ j | Upper => at_ 0 end) (T, match t with Lower => conv_ T (ext0 C) | Upper => succ_ T j end) (fun i =>
      c_for T (at_ 0) (tA, at_ (ext1 A)) (fun k =>
        let! aik := mget A i k in let! bjk := mget B j k in
        let! bik := mget B i k in let! ajk := mget A j k in
        macc_add C i j (aik * conj bjk + bik * conj ajk)))).

(** trsm_upper_left, counters as in blas3_triangular_matrix_matrix_solve.hpp:67-83 *)
Definition c_trsm_upper_left  (ty : ity) (A : mat O) (d : diagonal) (B X : mat O) : prog O unit :=
  let T := kind_of ty in
  c_for T (at_ 0) (T, conv_ T (ext1 B)) (fun k =>
    for_down (Z.to_nat (descending_start ty (ext0 A) + 1)) (fun i =>
      let! b := mget B i k in
      let! t := from_index (wrap ty (Z.of_nat i + 1)) (fun lo =>
                c_fold T (at_ lo) (T, conv_ T (ext0 A)) (fun j t =>
                  let! aij := mget A i j in let! xj := mget X j k in Ret (t - aij * xj)) b) in
      if is_explicit d then let! aii := mget A i i in mset X i k (t / aii)
      else mset X i k t)).

(** trsm_lower_left, counters as in blas3_triangular_matrix_matrix_solve.hpp:110-121 *)
Definition c_trsm_lower_left (ty : ity) (A : mat O) (d : diagonal) (B X : mat O) : prog O unit :=
  let T := kind_of ty in
  c_for T (at_ 0) (T, conv_ T (ext1 B)) (fun k =>
    c_for T (at_ 0) (T, conv_ T (ext0 A)) (fun i =>
      let! b := mget B i k in
      let! t := c_fold T (at_ 0) (T, at_ i) (fun j t =>
                  let! aij := mget A i j in let! xj := mget X j k in Ret (t - aij * xj)) b in
      if is_explicit d then let! aii := mget A i i in mset X i k (t / aii)
      else mset X i k t)).

(** trsm_upper_right, counters as in blas3_triangular_matrix_matrix_solve.hpp:148-157 *)
Definition c_trsm_upper_right (ty : ity) (A : mat O) (d : diagonal) (B X : mat O) : prog O unit :=
  let T := kind_of ty in
  c_for T (at_ 0) (T, conv_ T (ext0 B)) (fun i =>
    c_for T (at_ 0) (T, conv_ T (ext1 A)) (fun j =>
      let! b := mget B i j in
      let! t := c_fold T (at_ 0) (T, at_ j) (fun k t =>
                  let! xk := mget X i k in let! akj := mget A k j in Ret (t - xk * akj)) b in
      if is_explicit d then let! ajj := mget A j j in mset X i j (t / ajj)
      else mset X i j t)).

(** trsm_lower_right, counters as in blas3_triangular_matrix_matrix_solve.hpp:184-194 *)
Definition c_trsm_lower_right  (ty : ity) (A : mat O) (d : diagonal) (B X : mat O) : prog O unit :=
  let T := kind_of ty in
  c_for T (at_ 0) (T, conv_ T (ext0 B)) (fun i =>
    for_down (Z.to_nat (descending_start_signed ty (ext1 A) + 1)) (fun j =>
      let! b := mget B i j in
      let! t := from_index (wrap ty (Z.of_nat j + 1)) (fun lo =>
                c_fold T (at_ lo) (T, conv_ T (ext0 A)) (fun k t =>
                  let! xk := mget X i k in let! akj := mget A k j in Ret (t - xk * akj)) b) in
      if is_explicit d then let! ajj := mget A j j in mset X i j (t / ajj)
      else mset X i j t)).

Section CountedNorms.
Context {F : rops} (M : mags O F).
Local Open Scope mag_scope.

(** vector_abs_sum, counters as in blas1_vector_abs_sum.hpp:94-101 *)
Definition c_vector_abs_sum (tv : ikind) (v : vec O) (init : F) : prog O F :=
  let T := common_types tv [] in
  if arithmetic M then
    c_fold T (at_ 0) (tv, at_ (vext v)) (fun i s => let! x := vget v i in Ret (s + eabs M x)) init
  else
    c_fold T (at_ 0) (tv, at_ (vext v)) (fun i s =>
      let! x := vget v i in
      let s1 := s + rabs (ereal M x) in
      let! x' := vget v i in
      Ret (s1 + rabs (eimag M x'))) init.

(** vector_sum_of_squares, counters as in blas1_vector_sum_of_squares.hpp:107 *)
Definition c_vector_sum_of_squares (tx : ikind) (x : vec O) (init : sum_of_squares_result) : prog O sum_of_squares_result :=
  let T := common_types tx [] in
  if vext x =? 0 then Ret init
  else c_fold T (at_ 0) (tx, at_ (vext x)) (ssq_step M x) init.

(** matrix_frob_norm, counters as in blas1_matrix_frob_norm.hpp:94 *)
Definition c_matrix_frob_norm (tA : ikind) (A : mat O) (init : F) : prog O F :=
  let T := common_types tA [] in
  if (ext0 A =? 0) || (ext1 A =? 0) then Ret init
  else if (ext0 A =? 1) && (ext1 A =? 1) then
    let! a := mget A 0 0 in Ret (init + eabs M a)
  else
    let! s := c_fold T (at_ 0) (tA, at_ (ext0 A)) (fun i s => c_fold T (at_ 0) (tA, at_ (ext1 A)) (fun j s => frob_step M A i j s) s)
                (Ssq r0 r1) in
    Ret (init + scaling_factor s * rsqrt (scaled_sum_of_squares s)).

(** matrix_inf_norm, counters as in blas1_matrix_inf_norm.hpp:95 *)
Definition c_matrix_inf_norm (tA : ikind) (A : mat O) (init : F) : prog O F :=
  let T := common_types tA [] in
  if (ext0 A =? 0) || (ext1 A =? 0) then Ret init
  else if (ext0 A =? 1) && (ext1 A =? 1) then
    let! a := mget A 0 0 in Ret (init + eabs M a)
  else
    c_fold T (at_ 0) (tA, at_ (ext0 A)) (fun i result =>
      let! row_sum := c_fold T (at_ 0) (tA, at_ (ext1 A)) (fun j s => let! a := mget A i j in Ret (s + eabs M a)) init in
      Ret (std_max row_sum result)) init.

(** matrix_one_norm, counters as in blas1_matrix_one_norm.hpp:96 *)
Definition c_matrix_one_norm (tA : ikind) (A : mat O) (init : F) : prog O F :=
  let T := common_types tA [] in
  if (ext0 A =? 0) || (ext1 A =? 0) then Ret init
  else if (ext0 A =? 1) && (ext1 A =? 1) then
    let! a := mget A 0 0 in Ret (init + eabs M a)
  else
    c_fold T (at_ 0) (tA, at_ (ext1 A)) (fun j result =>
      let! col_sum := c_fold T (at_ 0) (tA, at_ (ext0 A)) (fun i s => let! a := mget A i j in Ret (s + eabs M a)) init in
      Ret (std_max col_sum result)) init.
End CountedNorms.
End Counted.

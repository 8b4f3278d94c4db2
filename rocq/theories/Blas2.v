(** BLAS-2 algorithms, inline (sequential) implementations.
    Paths are relative to /repo/include/experimental/__p1673_bits/. *)
From Coq Require Import List Arith ZArith Lia Bool.
From Verif Require Import Mem Scalar View Spec Idx.
Import ListNotations.
Set Implicit Arguments.
Local Open Scope sc_scope.
Local Open Scope prog_scope.

Section Blas2.
Context {O : ops}.

(** y(i) += e *)
Definition vacc_add (y : vec O) (i : nat) (e : O) : prog O unit :=
  let! v := vget y i in vset y i (v + e).
(** A(i,j) += e *)
Definition macc_add (A : mat O) (i j : nat) (e : O) : prog O unit :=
  let! v := mget A i j in mset A i j (v + e).

Definition is_explicit (d : diagonal) : bool := match d with Explicit => true | ImplicitUnit => false end.

(** blas2_matrix_vector_product.hpp:291-307 *)
Definition matrix_vector_product (A : mat O) (x y : vec O) : prog O unit :=
  for_range 0 (ext0 A) (fun i =>
    vset y i zero ;;
    for_range 0 (ext1 A) (fun j =>
      let! a := mget A i j in
      let! xj := vget x j in
      vacc_add y i (a * xj))).

(** blas2_matrix_vector_product.hpp:408-426 *)
Definition matrix_vector_product_upd (A : mat O) (x y z : vec O) : prog O unit :=
  for_range 0 (ext0 A) (fun i =>
    (let! yi := vget y i in vset z i yi) ;;
    for_range 0 (ext1 A) (fun j =>
      let! a := mget A i j in
      let! xj := vget x j in
      vacc_add z i (a * xj))).

(** Second part of symmetric_matrix_vector_product (blas2_matrix_vector_product.hpp:538-557, 661-680;
    [fd] = [fc] = identity) and of hermitian_matrix_vector_product (791-810, 921-940;
    [fd] = real_if_needed, [fc] = conj_if_needed). *)
Definition tri_mv_loop (fd fc : O -> O) (A : mat O) (t : triangle) (x y : vec O) : prog O unit :=
  match t with
  | Lower =>
      for_range 0 (ext1 A) (fun j =>
        (let! ajj := mget A j j in let! xj := vget x j in vacc_add y j (fd ajj * xj)) ;;
        for_range (j + 1) (ext0 A) (fun i =>
          let! aij := mget A i j in
          (let! xj := vget x j in vacc_add y i (aij * xj)) ;;
          (let! xi := vget x i in vacc_add y j (fc aij * xi))))
  | Upper =>
      for_range 0 (ext1 A) (fun j =>
        for_range 0 j (fun i =>
          let! aij := mget A i j in
          (let! xj := vget x j in vacc_add y i (aij * xj)) ;;
          (let! xi := vget x i in vacc_add y j (fc aij * xi))) ;;
        (let! ajj := mget A j j in let! xj := vget x j in vacc_add y j (fd ajj * xj)))
  end.

(** First part of the overwriting forms: blas2_matrix_vector_product.hpp:534-536, 787-789, 1049-1051. *)
Definition zero_rows (A : mat O) (y : vec O) : prog O unit :=
  for_range 0 (ext0 A) (fun i => vset y i zero).
(** First part of the updating forms: blas2_matrix_vector_product.hpp:657-659, 917-919, 1194-1196. *)
Definition copy_rows (A : mat O) (y z : vec O) : prog O unit :=
  for_range 0 (ext0 A) (fun i => let! yi := vget y i in vset z i yi).

(** blas2_matrix_vector_product.hpp:523-558 *)
Definition symmetric_matrix_vector_product (A : mat O) (t : triangle) (x y : vec O) : prog O unit :=
  zero_rows A y ;; tri_mv_loop (fun v => v) (fun v => v) A t x y.
(** blas2_matrix_vector_product.hpp:643-681 *)
Definition symmetric_matrix_vector_product_upd (A : mat O) (t : triangle) (x y z : vec O) : prog O unit :=
  copy_rows A y z ;; tri_mv_loop (fun v => v) (fun v => v) A t x z.
(** blas2_matrix_vector_product.hpp:776-811 *)
Definition hermitian_matrix_vector_product (A : mat O) (t : triangle) (x y : vec O) : prog O unit :=
  zero_rows A y ;; tri_mv_loop re conj A t x y.
(** blas2_matrix_vector_product.hpp:903-941 *)
Definition hermitian_matrix_vector_product_upd (A : mat O) (t : triangle) (x y z : vec O) : prog O unit :=
  copy_rows A y z ;; tri_mv_loop re conj A t x z.

(** Second part of triangular_matrix_vector_product, blas2_matrix_vector_product.hpp:1055-1076 and
    1200-1221. *)
Definition trmv_loop (A : mat O) (t : triangle) (d : diagonal) (x y : vec O) : prog O unit :=
  match t with
  | Lower =>
      for_range 0 (ext1 A) (fun j =>
        for_range (if is_explicit d then j else j + 1) (ext0 A) (fun i =>
          let! aij := mget A i j in let! xj := vget x j in vacc_add y i (aij * xj)) ;;
        when (negb (is_explicit d))
          (let! yj := vget y j in let! xj := vget x j in vset y j (yj + xj)))
  | Upper =>
      for_range 0 (ext1 A) (fun j =>
        for_range 0 (if is_explicit d then j + 1 else j) (fun i =>
          let! aij := mget A i j in let! xj := vget x j in vacc_add y i (aij * xj)) ;;
        when (negb (is_explicit d))
          (let! yj := vget y j in let! xj := vget x j in vset y j (yj + xj)))
  end.

(** blas2_matrix_vector_product.hpp:1037-1077 *)
Definition triangular_matrix_vector_product (A : mat O) (t : triangle) (d : diagonal) (x y : vec O) : prog O unit :=
  zero_rows A y ;; trmv_loop A t d x y.
(** blas2_matrix_vector_product.hpp:1177-1222 *)
Definition triangular_matrix_vector_product_upd (A : mat O) (t : triangle) (d : diagonal) (x y z : vec O) : prog O unit :=
  copy_rows A y z ;; trmv_loop A t d x z.

(** blas2_matrix_vector_product.hpp:1322-1356 (in place); the lower case runs j = extent(1)-(k+1) for
    k = 0, 1, ..., i.e. downwards (1334-1335). *)
Definition triangular_matrix_vector_product_inplace (A : mat O) (t : triangle) (d : diagonal) (y : vec O) : prog O unit :=
  match t with
  | Lower =>
      for_down (ext1 A) (fun j =>
        let! tmp := vget y j in
        for_range (j + 1) (ext0 A) (fun i =>
          let! aij := mget A i j in vacc_add y i (aij * tmp)) ;;
        when (is_explicit d)
          (let! yj := vget y j in let! ajj := mget A j j in vset y j (yj * ajj)))
  | Upper =>
      for_range 0 (ext1 A) (fun j =>
        let! tmp := vget y j in
        for_range 0 j (fun i =>
          let! aij := mget A i j in vacc_add y i (aij * tmp)) ;;
        when (is_explicit d)
          (let! yj := vget y j in let! ajj := mget A j j in vset y j (yj * ajj)))
  end.

(** * Triangular solve *)

(** Initial value of [ptrdiff_t i = A_num_rows - 1] (blas2_matrix_vector_solve.hpp:81, 87), A_num_rows
    being of type [t]: subtraction in the promoted type, then conversion to ptrdiff_t. *)
Definition descending_start (t : ity) (n : nat) : Z :=
  wrap I64 (wrap (promote t) (wrap t (Z.of_nat n) - 1)).

(** A loop start computed in a signed type: a negative index would be used to access the views
    (undefined behaviour). *)
Definition from_index {A} (z : Z) (k : nat -> prog O A) : prog O A :=
  if (z <? 0)%Z then Fail OutOfBounds else k (Z.to_nat z).

(** blas2_matrix_vector_solve.hpp:70-104.  [ty] is the common size_type; the inner loop starts at
    [size_type j = i + 1] (91). *)
Definition trsv_upper (ty : ity) (divide : O -> O -> O) (A : mat O) (d : diagonal) (B X : vec O) : prog O unit :=
  for_down (Z.to_nat (descending_start ty (ext0 A) + 1)) (fun i =>
    let! b := vget B i in
    let! t := from_index (wrap ty (Z.of_nat i + 1)) (fun lo =>
              fold_range lo (ext1 A) (fun j t =>
                let! aij := mget A i j in let! xj := vget X j in Ret (t - aij * xj)) b) in
    if is_explicit d then let! aii := mget A i i in vset X i (divide t aii)
    else vset X i t).

(** blas2_matrix_vector_solve.hpp:145-176 *)
Definition trsv_lower (divide : O -> O -> O) (A : mat O) (d : diagonal) (B X : vec O) : prog O unit :=
  for_range 0 (ext0 A) (fun i =>
    let! b := vget B i in
    let! t := fold_range 0 i (fun j t =>
                let! aij := mget A i j in let! xj := vget X j in Ret (t - aij * xj)) b in
    if is_explicit d then let! aii := mget A i i in vset X i (divide t aii)
    else vset X i t).

(** blas2_matrix_vector_solve.hpp:245-260 (with a division operator). *)
Definition triangular_matrix_vector_solve_with (ty : ity) (divide : O -> O -> O)
    (A : mat O) (t : triangle) (d : diagonal) (b x : vec O) : prog O unit :=
  match t with
  | Lower => trsv_lower divide A d b x
  | Upper => trsv_upper ty divide A d b x
  end.
(** blas2_matrix_vector_solve.hpp:277-287: divide is operator/. *)
Definition triangular_matrix_vector_solve (ty : ity) (A : mat O) (t : triangle) (d : diagonal) (b x : vec O) : prog O unit :=
  triangular_matrix_vector_solve_with ty div A t d b x.

(** * Rank-1 and rank-2 updates *)

(** blas2_matrix_rank_1_update.hpp:177-190 *)
Definition matrix_rank_1_update (x y : vec O) (A : mat O) : prog O unit :=
  for_range 0 (ext0 A) (fun i =>
    for_range 0 (ext1 A) (fun j =>
      let! xi := vget x i in let! yj := vget y j in macc_add A i j (xi * yj))).
(** blas2_matrix_rank_1_update.hpp:261-267 *)
Definition matrix_rank_1_update_c (fix_nc noncomplex : bool) (x y : vec O) (A : mat O) : prog O unit :=
  matrix_rank_1_update x (conjugated_v fix_nc noncomplex y) A.

(** Row range of column j of a triangle: blas2_matrix_rank_1_update.hpp:324/331 (and 431/438, 538/546,
    647/655), blas2_matrix_rank_2_update.hpp:125-128, 217-221. *)
Definition tri_lo (t : triangle) (j : nat) : nat := match t with Lower => j | Upper => 0 end.
Definition tri_hi (t : triangle) (n j : nat) : nat := match t with Lower => n | Upper => j + 1 end.

(** blas2_matrix_rank_1_update.hpp:313-336 *)
Definition symmetric_matrix_rank_1_update_alpha (alpha : O) (x : vec O) (A : mat O) (t : triangle) : prog O unit :=
  for_range 0 (ext1 A) (fun j =>
    for_range (tri_lo t j) (tri_hi t (ext0 A) j) (fun i =>
      let! xi := vget x i in let! xj := vget x j in macc_add A i j (alpha * xi * xj))).
(** blas2_matrix_rank_1_update.hpp:421-443 *)
Definition symmetric_matrix_rank_1_update (x : vec O) (A : mat O) (t : triangle) : prog O unit :=
  for_range 0 (ext1 A) (fun j =>
    for_range (tri_lo t j) (tri_hi t (ext0 A) j) (fun i =>
      let! xi := vget x i in let! xj := vget x j in macc_add A i j (xi * xj))).

(** A(j,j) = real_if_needed(A(j,j)), blas2_matrix_rank_1_update.hpp:537, 545, 646, 654,
    blas2_matrix_rank_2_update.hpp:220. *)
Definition make_real (A : mat O) (j : nat) : prog O unit :=
  let! a := mget A j j in mset A j j (re a).

(** blas2_matrix_rank_1_update.hpp:526-551 *)
Definition hermitian_matrix_rank_1_update_alpha (alpha : O) (x : vec O) (A : mat O) (t : triangle) : prog O unit :=
  for_range 0 (ext1 A) (fun j =>
    make_real A j ;;
    for_range (tri_lo t j) (tri_hi t (ext0 A) j) (fun i =>
      let! xi := vget x i in let! xj := vget x j in macc_add A i j (alpha * xi * conj xj))).
(** blas2_matrix_rank_1_update.hpp:636-660 *)
Definition hermitian_matrix_rank_1_update (x : vec O) (A : mat O) (t : triangle) : prog O unit :=
  for_range 0 (ext1 A) (fun j =>
    make_real A j ;;
    for_range (tri_lo t j) (tri_hi t (ext0 A) j) (fun i =>
      let! xi := vget x i in let! xj := vget x j in macc_add A i j (xi * conj xj))).

(** blas2_matrix_rank_2_update.hpp:114-132 *)
Definition symmetric_matrix_rank_2_update (x y : vec O) (A : mat O) (t : triangle) : prog O unit :=
  for_range 0 (ext1 A) (fun j =>
    for_range (tri_lo t j) (tri_hi t (ext0 A) j) (fun i =>
      let! xi := vget x i in let! yj := vget y j in
      let! yi := vget y i in let! xj := vget x j in
      macc_add A i j (xi * yj + yi * xj))).
(** blas2_matrix_rank_2_update.hpp:205-225 *)
Definition hermitian_matrix_rank_2_update (x y : vec O) (A : mat O) (t : triangle) : prog O unit :=
  for_range 0 (ext1 A) (fun j =>
    make_real A j ;;
    for_range (tri_lo t j) (tri_hi t (ext0 A) j) (fun i =>
      let! xi := vget x i in let! yj := vget y j in
      let! yi := vget y i in let! xj := vget x j in
      macc_add A i j (xi * conj yj + yi * conj xj))).

End Blas2.

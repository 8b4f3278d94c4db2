(** Elementwise operations, dot, products and the rank-1 update whose arguments have different element types: every
    conversion to the type of the output (C81).  Paths are relative to /repo/include/experimental/__p1673_bits/.
    The left operand of a compound assignment x op= e of type T becomes T(x op e), as for arithmetic types
    ([expr.ass]/7) and std::complex.
    Simplification: T{} is the conversion to T of the zero [z]; true of arithmetic types and std::complex. *)
From Coq Require Import ZArith Bool List.
From Verif Require Import Mem Scalar View Spec Proxy Typed.
Local Open Scope prog_scope.

Section TypedProd.
Variable L : cpp.
Variables z o : cval L.
Notation O := (typed_ops L z o).
(** Element type of the object written, or type of the accumulator. *)
Variable tY : ctype L.

(** blas1_linalg_copy.hpp:63-74 *)
Definition typed_copy (x y : vec O) : prog O unit :=
  for_range 0 (vext y) (fun i => let! v := vget x i in vset y i (cast L tY v)).
(** blas1_scale.hpp:59-66; x has element type [tY] *)
Definition typed_scale (alpha : cval L) (x : vec O) : prog O unit :=
  for_range 0 (vext x) (fun i => let! v := vget x i in vset x i (cast L tY (cbin L Times v alpha))).
(** blas1_linalg_add.hpp:68-87 *)
Definition typed_add (x y v : vec O) : prog O unit :=
  for_range 0 (vext v) (fun i =>
    let! a := vget x i in let! b := vget y i in vset v i (cast L tY (cbin L Plus a b))).
(** blas1_dot.hpp:92-107; [tY] is Scalar, the type of init *)
Definition typed_dot (v1 v2 : vec O) (init : cval L) : prog O O :=
  fold_range 0 (vext v1) (fun k acc =>
    let! a := vget v1 k in let! b := vget v2 k in
    Ret (cast L tY (cbin L Plus acc (cbin L Times a b)))) init.
(** y(i) += e and A(i,j) += e *)
Definition typed_vacc (y : vec O) (i : nat) (e : cval L) : prog O unit :=
  let! u := vget y i in vset y i (cast L tY (cbin L Plus u e)).
Definition typed_macc (A : mat O) (i j : nat) (e : cval L) : prog O unit :=
  let! u := mget A i j in mset A i j (cast L tY (cbin L Plus u e)).
(** blas2_matrix_vector_product.hpp:291-307 *)
Definition typed_gemv (A : mat O) (x y : vec O) : prog O unit :=
  for_range 0 (ext0 A) (fun i =>
    vset y i (cast L tY z) ;;
    for_range 0 (ext1 A) (fun j =>
      let! a := mget A i j in let! xj := vget x j in typed_vacc y i (cbin L Times a xj))).
(** blas2_matrix_vector_product.hpp:408-426 *)
Definition typed_gemv_upd (A : mat O) (x y v : vec O) : prog O unit :=
  for_range 0 (ext0 A) (fun i =>
    (let! yi := vget y i in vset v i (cast L tY yi)) ;;
    for_range 0 (ext1 A) (fun j =>
      let! a := mget A i j in let! xj := vget x j in typed_vacc v i (cbin L Times a xj))).
(** blas2_matrix_rank_1_update.hpp:178-190 *)
Definition typed_ger (x y : vec O) (A : mat O) : prog O unit :=
  for_range 0 (ext0 A) (fun i =>
    for_range 0 (ext1 A) (fun j =>
      let! xi := vget x i in let! yj := vget y j in typed_macc A i j (cbin L Times xi yj))).
(** blas3_matrix_product.hpp:722-731 *)
Definition typed_gemm (A B C : mat O) : prog O unit :=
  for_range 0 (ext0 C) (fun i =>
    for_range 0 (ext1 C) (fun j =>
      mset C i j (cast L tY z) ;;
      for_range 0 (ext1 A) (fun k =>
        let! a := mget A i k in let! b := mget B k j in typed_macc C i j (cbin L Times a b)))).
(** blas3_matrix_product.hpp:811-818 *)
Definition typed_gemm_upd (A B E C : mat O) : prog O unit :=
  for_range 0 (ext0 C) (fun i =>
    for_range 0 (ext1 C) (fun j =>
      (let! e := mget E i j in mset C i j (cast L tY e)) ;;
      for_range 0 (ext1 A) (fun k =>
        let! a := mget A i k in let! b := mget B k j in typed_macc C i j (cbin L Times a b)))).
End TypedProd.

(** blas1_dot.hpp:234-241: dot (v1, v2, return_t{}) with return_t = decltype (v1(0) * v2(0)) (210-219); [t1] and [t2] are
    the element types. *)
Definition typed_dot_noinit (L : cpp) (z o : cval L) (t1 t2 : ctype L) (v1 v2 : vec (typed_ops L z o)) :
    prog (typed_ops L z o) (typed_ops L z o) :=
  typed_dot L z o (mul_type L t1 t2) v1 v2 (cast L (mul_type L t1 t2) z).

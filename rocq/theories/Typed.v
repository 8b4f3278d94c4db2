(** Triangular solves whose matrix, right-hand side and solution have different element types: the conversions to the
    type of the accumulator and to the type of the solution (C80).
    Paths are relative to /repo/include/experimental/__p1673_bits/.
    Simplification: a decltype is computed from the element types with [mul_type], which is the type of a difference as
    well as of a product for arithmetic types (usual arithmetic conversions). *)
From Coq Require Import ZArith Bool List.
From Flocq Require Import Core.Core IEEE754.BinarySingleNaN.
From Verif Require Import Mem Scalar View Spec Ieee Mixed Idx Blas1 Blas2 Blas3 Proxy.
Local Open Scope prog_scope.

(** The operators of [L] on its values, as scalars of the views; [z] and [o] are not used by the solves. *)
Definition typed_ops (L : cpp) (z o : cval L) : ops :=
  @Ops (cval L) z o (cbin L Plus) (cbin L Minus) (cbin L Times) (cbin L Divide) (cconjugate L) (creal L).

Section Typed.
Variable L : cpp.
Variables z o : cval L.
Notation O := (typed_ops L z o).
(** ElementType_A, ElementType_B, ElementType_X *)
Variables tA tB tX : ctype L.

(** decltype (B(i) - A(0,0) * X(0)): blas2_matrix_vector_solve.hpp:91, 163,
    blas3_triangular_matrix_matrix_solve.hpp:80, 155, 193 *)
Definition sum_type : ctype L := mul_type L tB (mul_type L tA tX).

(** blas2_matrix_vector_solve.hpp:70-104; [divide] is x / y (285) *)
Definition typed_trsv_upper (ty : ity) (A : mat O) (d : diagonal) (B X : vec O) : prog O unit :=
  for_down (Z.to_nat (descending_start ty (ext0 A) + 1)) (fun i =>
    let! b := vget B i in
    let! t := from_index (wrap ty (Z.of_nat i + 1)) (fun lo =>
              fold_range lo (ext1 A) (fun j t =>
                let! aij := mget A i j in let! xj := vget X j in
                Ret (cast L sum_type (cbin L Minus t (cbin L Times aij xj)))) (cast L sum_type b)) in
    if is_explicit d then let! aii := mget A i i in vset X i (cast L tX (cbin L Divide t aii))
    else vset X i (cast L tX t)).
(** blas2_matrix_vector_solve.hpp:145-176 *)
Definition typed_trsv_lower (A : mat O) (d : diagonal) (B X : vec O) : prog O unit :=
  for_range 0 (ext0 A) (fun i =>
    let! b := vget B i in
    let! t := fold_range 0 i (fun j t =>
                let! aij := mget A i j in let! xj := vget X j in
                Ret (cast L sum_type (cbin L Minus t (cbin L Times aij xj)))) (cast L sum_type b) in
    if is_explicit d then let! aii := mget A i i in vset X i (cast L tX (cbin L Divide t aii))
    else vset X i (cast L tX t)).
(** blas2_matrix_vector_solve.hpp:245-260 *)
Definition typed_trsv (ty : ity) (A : mat O) (t : triangle) (d : diagonal) (B X : vec O) : prog O unit :=
  match t with Lower => typed_trsv_lower A d B X | Upper => typed_trsv_upper ty A d B X end.

(** blas3_triangular_matrix_matrix_solve.hpp:72-93 (upper, left) *)
Definition typed_trsm_upper_left (ty : ity) (A : mat O) (d : diagonal) (B X : mat O) : prog O unit :=
  for_range 0 (ext1 B) (fun k =>
    for_down (Z.to_nat (descending_start ty (ext0 A) + 1)) (fun i =>
      let! b := mget B i k in
      let! t := from_index (wrap ty (Z.of_nat i + 1)) (fun lo =>
                fold_range lo (ext0 A) (fun j t =>
                  let! aij := mget A i j in let! xj := mget X j k in
                  Ret (cast L sum_type (cbin L Minus t (cbin L Times aij xj)))) (cast L sum_type b)) in
      if is_explicit d then let! aii := mget A i i in mset X i k (cast L tX (cbin L Divide t aii))
      else mset X i k (cast L tX t))).
(** blas3_triangular_matrix_matrix_solve.hpp:115-131 (lower, left); here the accumulator is "ElementType_X t" (120) *)
Definition typed_trsm_lower_left (A : mat O) (d : diagonal) (B X : mat O) : prog O unit :=
  for_range 0 (ext1 B) (fun k =>
    for_range 0 (ext0 A) (fun i =>
      let! b := mget B i k in
      let! t := fold_range 0 i (fun j t =>
                  let! aij := mget A i j in let! xj := mget X j k in
                  Ret (cast L tX (cbin L Minus t (cbin L Times aij xj)))) (cast L tX b) in
      if is_explicit d then let! aii := mget A i i in mset X i k (cast L tX (cbin L Divide t aii))
      else mset X i k (cast L tX t))).
(** blas3_triangular_matrix_matrix_solve.hpp:153-167 (upper, right) *)
Definition typed_trsm_upper_right (A : mat O) (d : diagonal) (B X : mat O) : prog O unit :=
  for_range 0 (ext0 B) (fun i =>
    for_range 0 (ext1 A) (fun j =>
      let! b := mget B i j in
      let! t := fold_range 0 j (fun k t =>
                  let! xk := mget X i k in let! akj := mget A k j in
                  Ret (cast L sum_type (cbin L Minus t (cbin L Times xk akj)))) (cast L sum_type b) in
      if is_explicit d then let! ajj := mget A j j in mset X i j (cast L tX (cbin L Divide t ajj))
      else mset X i j (cast L tX t))).
(** blas3_triangular_matrix_matrix_solve.hpp:187-205 (lower, right) *)
Definition typed_trsm_lower_right (ty : ity) (A : mat O) (d : diagonal) (B X : mat O) : prog O unit :=
  for_range 0 (ext0 B) (fun i =>
    for_down (Z.to_nat (descending_start_signed ty (ext1 A) + 1)) (fun j =>
      let! b := mget B i j in
      let! t := from_index (wrap ty (Z.of_nat j + 1)) (fun lo =>
                fold_range lo (ext0 A) (fun k t =>
                  let! xk := mget X i k in let! akj := mget A k j in
                  Ret (cast L sum_type (cbin L Minus t (cbin L Times xk akj)))) (cast L sum_type b)) in
      if is_explicit d then let! ajj := mget A j j in mset X i j (cast L tX (cbin L Divide t ajj))
      else mset X i j (cast L tX t))).
(** blas3_triangular_matrix_matrix_solve.hpp:297-302, 366-371 *)
Definition typed_trsm_left (ty : ity) (A : mat O) (t : triangle) (d : diagonal) (B X : mat O) : prog O unit :=
  match t with Lower => typed_trsm_lower_left A d B X | Upper => typed_trsm_upper_left ty A d B X end.
Definition typed_trsm_right (ty : ity) (A : mat O) (t : triangle) (d : diagonal) (B X : mat O) : prog O unit :=
  match t with Lower => typed_trsm_lower_right ty A d B X | Upper => typed_trsm_upper_right A d B X end.
End Typed.

(** float and double with the conversions of C++ (round to nearest; C++ [conv.double] leaves the choice between the two
    neighbours to the implementation). *)
Inductive fd_type := TFloat | TDbl.
Inductive fd := VFloat (x : binary_float 24 128) | VDbl (x : binary64).
Definition fd_double (v : fd) : binary64 := match v with VFloat x => widen 24 128 53 1024 prec53 emax1024 x | VDbl x => x end.
Definition fd_cast (t : fd_type) (v : fd) : fd :=
  match t, v with
  | TFloat, VDbl x => VFloat (widen 53 1024 24 128 prec24 emax128 x)
  | TDbl, VFloat x => VDbl (fd_double v)
  | _, _ => v
  end.
Definition fd_bin (p : binop) (u v : fd) : fd :=
  match u, v with
  | VFloat x, VFloat y => VFloat (match p with Plus => Bplus mode_NE x y | Minus => Bminus mode_NE x y
                                  | Times => Bmult mode_NE x y | Divide => Bdiv mode_NE x y end)
  | _, _ => let x := fd_double u in let y := fd_double v in
            VDbl (match p with Plus => Bplus mode_NE x y | Minus => Bminus mode_NE x y
                  | Times => Bmult mode_NE x y | Divide => Bdiv mode_NE x y end)
  end.
Definition floats : cpp :=
  Cpp fd_type fd (fun v => match v with VFloat _ => TFloat | VDbl _ => TDbl end) (fun _ => false) fd_cast
    (fun s t => match s, t with TFloat, TFloat => TFloat | _, _ => TDbl end) (fun t => t) fd_bin
    (fun v => match v with VFloat x => VFloat (Bopp x) | VDbl x => VDbl (Bopp x) end)
    (fun v => match v with VFloat x => VFloat (Babs x) | VDbl x => VDbl (Babs x) end)
    (fun v => v) (fun v => match v with VFloat _ => VFloat (B754_zero false) | VDbl _ => VDbl (B754_zero false) end)
    (fun v => v) (fun u v => Beqb (fd_double u) (fd_double v)).

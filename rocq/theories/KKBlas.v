(** The Kokkos back end: overloads that hand the work to KokkosBlas or to Kokkos::deep_copy.
    Paths are relative to /repo/tpl-implementations/include/experimental/__p1673_bits/kokkos-kernels/.
    KokkosBlas and Kokkos are not part of /repo: an overload is modelled by the tests it makes and the
    sequence of library calls, with all arguments.  What the calls do is stated in SpecKB.v.
    Not modelled: static_extent_match on static extents, fences, signal_kokkos_impl_called. *)
From Coq Require Import List Arith NArith Bool.
From Verif Require Import Mem Scalar View Spec Blas3 KK.
Set Implicit Arguments.

(** "N" and "T" of gemv and gemm, blas2_gemv_kk.hpp:85, blas3_overwriting_gemm_kk.hpp:80, 165, 251 *)
Inductive trans_arg := ArgN | ArgT.
(** "L" and "R" of trmm and trsm, blas3_matrix_product_kk.hpp:228-229, blas3_triangular_matrix_matrix_solve.hpp:64-65 *)
Inductive side_arg := SideL | SideR.
(** "L" and "U" of trmm and trsm, blas3_matrix_product_kk.hpp:231-232, blas3_triangular_matrix_matrix_solve.hpp:66-67 *)
Inductive uplo_arg := UploL | UploU.
(** "N" and "U", the diagonal argument of trmm and trsm, blas3_matrix_product_kk.hpp:235,
    blas3_triangular_matrix_matrix_solve.hpp:68-69 *)
Inductive diag_arg := DiagN | DiagU.

Section KKBlas.
Context {O : ops}.

(** Calls of KokkosBlas routines and of Kokkos::deep_copy (first argument is the destination):
    blas2_gemv_kk.hpp:85, blas3_overwriting_gemm_kk.hpp:80, blas1_add_kk.hpp:90, blas1_scale_kk.hpp:31,
    blas1_copy_kk.hpp:38, blas3_triangular_matrix_matrix_solve.hpp:73, blas3_matrix_product_kk.hpp:239. *)
Inductive kcall :=
| KGemv (tr : trans_arg) (alpha : O) (A : mat O) (x : vec O) (beta : O) (y : vec O)
| KGemm (ta tb : trans_arg) (alpha : O) (A B : mat O) (beta : O) (C : mat O)
| KUpdate1 (alpha : O) (x : vec O) (beta : O) (y : vec O) (gamma : O) (z : vec O)
| KUpdate2 (alpha : O) (x : mat O) (beta : O) (y : mat O) (gamma : O) (z : mat O)
| KScal1 (r : vec O) (alpha : O) (x : vec O)
| KScal2 (r : mat O) (alpha : O) (x : mat O)
| KCopy1 (dst src : vec O)
| KCopy2 (dst src : mat O)
| KTrsm (s : side_arg) (u : uplo_arg) (tr : trans_arg) (dg : diag_arg) (alpha : O) (A X : mat O)
| KTrmm (s : side_arg) (u : uplo_arg) (tr : trans_arg) (dg : diag_arg) (alpha : O) (A X : mat O).

(** An overload: throws, does not compile, makes a call and goes on, or ends. [KInline]: it calls the
    sequential algorithm of the library, blas3_overwriting_gemm_kk.hpp:86. *)
Inductive kprog :=
| KDone
| KThrow
| KIllFormed
| KInline (p : prog O unit)
| KCall (c : kcall) (k : kprog).

(** [if (n != m) throw std::runtime_error(...)], as in blas3_overwriting_gemm_kk.hpp:49-57 *)
Definition kcheck (n m : nat) (p : kprog) : kprog := if n =? m then p else KThrow.

(** mdspan_to_view, mdspan_to_view_mapper_kk.hpp:71-89 and 125-145 (as [view_m] of KK.v) *)
Definition kview (A : mat O) (k : mat O -> kprog) : kprog :=
  match mlay A with
  | LLeft => k (Mat (mbase A) (ext0 A) (ext1 A) LLeft ADefault)
  | LRight => k (Mat (mbase A) (ext0 A) (ext1 A) LRight ADefault)
  | LTrans LLeft => k (Mat (mbase A) (ext1 A) (ext0 A) LLeft ADefault)
  | LTrans LRight => k (Mat (mbase A) (ext1 A) (ext0 A) LRight ADefault)
  | _ => KIllFormed
  end.

(** std::is_same_v<Accessor, default_accessor<ElementType>>, blas3_overwriting_gemm_kk.hpp:70-73 *)
Definition is_default (a : acc O) : bool := match a with ADefault => true | _ => false end.
(** Whether overload resolution sees layout_transpose<NestedLayout>, blas3_overwriting_gemm_kk.hpp:119, 208 *)
Definition is_transposed (A : mat O) : bool := match mlay A with LTrans _ => true | _ => false end.

(** * BLAS 1 *)
(** blas1_add_kk.hpp:26-91, rank 1 and rank 2; all accessors default *)
Definition kb_add_1 (x y z : vec O) : kprog :=
  kcheck (vext x) (vext y) (kcheck (vext y) (vext z)
    (KCall (KUpdate1 one (view_v x) one (view_v y) zero (view_v z)) KDone)).
Definition kb_add_2 (x y z : mat O) : kprog :=
  kcheck (ext0 x) (ext0 y) (kcheck (ext0 y) (ext0 z)
  (kcheck (ext1 x) (ext1 y) (kcheck (ext1 y) (ext1 z)
    (kview x (fun xv => kview y (fun yv => kview z (fun zv =>
      KCall (KUpdate2 one xv one yv zero zv) KDone))))))).
(** blas1_scale_kk.hpp:13-32 *)
Definition kb_scale_1 (alpha : O) (x : vec O) : kprog := KCall (KScal1 (view_v x) alpha (view_v x)) KDone.
Definition kb_scale_2 (alpha : O) (x : mat O) : kprog :=
  kview x (fun xv => KCall (KScal2 xv alpha xv) KDone).
(** blas1_copy_kk.hpp:9-38: views of the same layout (always so for rank 1; for rank 2 the other branch is
    kk_copy_2 in KKNorm.v).  The extents are not compared. *)
Definition kb_copy_1 (x y : vec O) : kprog := KCall (KCopy1 (view_v y) (view_v x)) KDone.
Definition kb_copy_2 (x y : mat O) : kprog :=
  kview x (fun xv => kview y (fun yv => KCall (KCopy2 yv xv) KDone)).

(** A returned value: an exception, or the value of a library function and what is made of it,
    blas1_dot_kk.hpp:111, blas1_idx_abs_max_kk.hpp:30. *)
Inductive kval (R : Type) :=
| KVThrow
| KVDot (x y : vec O) (k : O -> R)
| KVIamax (v : vec O) (k : N -> R).

(** blas1_dot_kk.hpp:70-112: x conjugated over the default accessor, y default *)
Definition kb_dot_conj (x y : vec O) (init : O) : kval O :=
  if vext x =? vext y then KVDot (view_v x) (view_v y) (fun r => (r + init)%sc) else KVThrow _.
(** blas1_idx_abs_max_kk.hpp:12-31.  [size_max]: the largest value of the unsigned result type, 0 - 1. *)
Definition kb_vector_idx_abs_max (size_max : N) (v : vec O) : kval N :=
  KVIamax (view_v v) (fun r => if N.eqb r 0 then size_max else N.pred r).

(** * BLAS 2 *)
(** blas2_gemv_kk.hpp:32-86, overwriting; default accessors *)
Definition kb_matrix_vector_product (A : mat O) (x y : vec O) : kprog :=
  kcheck (ext1 A) (vext x) (kcheck (ext0 A) (vext y) (kview A (fun Av =>
    KCall (KGemv ArgN one Av (view_v x) zero (view_v y)) KDone))).
(** blas2_gemv_kk.hpp:180-254, updating, chosen when the accessor of y is not the default one.  Line 243
    calls y.accessor().scale_factor(), and neither scaled_accessor (its member function is
    scaling_factor, /repo/include/experimental/__p1673_bits/scaled.hpp:99-100) nor conjugated_accessor
    (conjugated.hpp:53-95) has such a member.  Default y: the overload of KK.v. *)
Definition kb_matrix_vector_product_scaled (A : mat O) (x y z : vec O) : kprog := KIllFormed.

(** trimatmatsolve_impl::trsm, blas3_triangular_matrix_matrix_solve.hpp:57-74 *)
Definition kb_trsm (s : side_arg) (t : triangle) (d : diagonal) (A X : mat O) : kprog :=
  KCall (KTrsm s (match t with Lower => UploL | Upper => UploU end) ArgN
    (match d with Explicit => DiagN | ImplicitUnit => DiagU end) one A X) KDone.
(** blas2_triangular_matrix_vector_solve.hpp:70-122: x := b, then trsm on the n x 1 view of x.  The layout of
    that view is that of View<T*>, layout left on host spaces; x_view.data_handle() (119) is read as the
    pointer of the view. *)
Definition kb_triangular_matrix_vector_solve (A : mat O) (t : triangle) (d : diagonal) (b x : vec O) : kprog :=
  kcheck (ext0 A) (ext1 A) (kcheck (ext1 A) (vext b) (kcheck (ext0 A) (vext x) (kview A (fun Av =>
    KCall (KCopy1 (view_v x) (view_v b))
      (kb_trsm SideL t d Av (Mat (vbase x) (vext x) 1 LLeft ADefault)))))).

(** * BLAS 3 *)
(** blas3_overwriting_gemm_kk.hpp:13-88 (neither operand transposed), 93-173 (A), 179-259 (B).  When both are
    layout_transpose neither of the last two overloads is more specialised: the call is ambiguous.  The
    fallback matrix_product(A,B,C) (86, 171, 257) reaches the sequential algorithm whatever the default
    policy is mapped to (see Dispatch.v: no custom implementation is ever found for this call). *)
Definition kb_matrix_product (A B C : mat O) : kprog :=
  if is_transposed A && is_transposed B then KIllFormed else
  kcheck (ext1 A) (ext0 B) (kcheck (ext0 A) (ext0 C) (kcheck (ext1 B) (ext1 C)
    (kview A (fun Av => kview B (fun Bv => kview C (fun Cv =>
      if is_default (macc A) && is_default (macc B) && is_default (macc C)
      then KCall (KGemm (if is_transposed A then ArgT else ArgN) (if is_transposed B then ArgT else ArgN)
                    one Av Bv zero Cv) KDone
      else KInline (matrix_product A B C))))))).

(** matproduct_impl::trmm_kk, blas3_matrix_product_kk.hpp:220-240: "U" for the lower triangle *)
Definition kb_trmm (s : side_arg) (t : triangle) (A X : mat O) : kprog :=
  KCall (KTrmm s (match t with Lower => UploU | Upper => UploL end) ArgN DiagN one A X) KDone.
(** blas3_matrix_product_kk.hpp:745-774 (left), 799-818 (left in place), 841-871 (right), 895-915 (right in
    place), with an explicit diagonal (implicit unit diagonal: KK.v).  Extents: 66-83, 104-125, 135-156. *)
Definition kcheck_left (A B C : mat O) (p : kprog) : kprog :=
  kcheck (ext0 A) (ext1 A) (kcheck (ext1 A) (ext0 B) (kcheck (ext0 A) (ext0 C) (kcheck (ext1 B) (ext1 C) p))).
Definition kcheck_right (A B C : mat O) (p : kprog) : kprog :=
  kcheck (ext0 A) (ext1 A) (kcheck (ext1 B) (ext0 A) (kcheck (ext0 B) (ext0 C) (kcheck (ext1 A) (ext1 C) p))).
Definition kb_triangular_matrix_left_product (A : mat O) (t : triangle) (B C : mat O) : kprog :=
  kcheck_left A B C (kview A (fun Av => kview B (fun Bv => kview C (fun Cv =>
    KCall (KCopy2 Cv Bv) (kb_trmm SideL t Av Cv))))).
Definition kb_triangular_matrix_left_product_inplace (A : mat O) (t : triangle) (C : mat O) : kprog :=
  kcheck_left A C C (kview A (fun Av => kview C (fun Cv => kb_trmm SideL t Av Cv))).
Definition kb_triangular_matrix_right_product (A : mat O) (t : triangle) (B C : mat O) : kprog :=
  kcheck_right A B C (kview A (fun Av => kview B (fun Bv => kview C (fun Cv =>
    KCall (KCopy2 Cv Bv) (kb_trmm SideR t Av Cv))))).
Definition kb_triangular_matrix_right_product_inplace (A : mat O) (t : triangle) (C : mat O) : kprog :=
  kcheck_right A C C (kview A (fun Av => kview C (fun Cv => kb_trmm SideR t Av Cv))).

(** blas3_triangular_matrix_matrix_solve.hpp:82-147 (left), 150-215 (right): X := B, then trsm *)
Definition kb_triangular_matrix_matrix_left_solve (A : mat O) (t : triangle) (d : diagonal) (B X : mat O) : kprog :=
  kcheck (ext0 A) (ext1 A) (kcheck (ext1 A) (ext0 B) (kcheck (ext0 X) (ext0 B) (kcheck (ext1 X) (ext1 B)
    (kview A (fun Av => kview B (fun Bv => kview X (fun Xv =>
      KCall (KCopy2 Xv Bv) (kb_trsm SideL t d Av Xv)))))))).
Definition kb_triangular_matrix_matrix_right_solve (A : mat O) (t : triangle) (d : diagonal) (B X : mat O) : kprog :=
  kcheck (ext0 A) (ext1 A) (kcheck (ext1 A) (ext1 B) (kcheck (ext0 X) (ext0 B) (kcheck (ext1 X) (ext1 B)
    (kview A (fun Av => kview B (fun Bv => kview X (fun Xv =>
      KCall (KCopy2 Xv Bv) (kb_trsm SideR t d Av Xv)))))))).

End KKBlas.
Arguments kcall O : clear implicits.
Arguments kprog O : clear implicits.
Arguments kval O R : clear implicits.

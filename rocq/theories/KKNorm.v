(** The Kokkos back end: algorithms that run their own parallel_reduce (norms, sums, dot), and copy and
    swap_elements.  Paths are relative to
    /repo/tpl-implementations/include/experimental/__p1673_bits/kokkos-kernels/. *)
From Coq Require Import List Arith Lia Bool.
From Verif Require Import Mem Scalar View Norm Par KK Red.
Import ListNotations.
Set Implicit Arguments.
Local Open Scope prog_scope.

Section Views.
Context {O : ops} {A X : Type}.
(** mdspan_to_view for rank 2 as in KK.v ([view_m]), for algorithms that return a value. *)
Definition rview_m (M : mat O) (k : mat O -> red O A X) : red O A X :=
  match mlay M with
  | LLeft => k (Mat (mbase M) (ext0 M) (ext1 M) LLeft ADefault)
  | LRight => k (Mat (mbase M) (ext0 M) (ext1 M) LRight ADefault)
  | LTrans LLeft => k (Mat (mbase M) (ext1 M) (ext0 M) LLeft ADefault)
  | LTrans LRight => k (Mat (mbase M) (ext1 M) (ext0 M) LRight ADefault)
  | _ => RIllFormed
  end.
End Views.

Section Dot.
Context {O : ops}.
Local Open Scope sc_scope.
(** blas1_dot_kk.hpp:35-68 (default accessors): update += x_view(i)*y_view(i); Scalar(result) + init.
    Simplification: Scalar and the type of the product are the same type. *)
Definition kk_dot (x y : vec O) (init : O) : red O O O :=
  if vext x =? vext y then
    RReduce (vext x) (fun i s => let! a := vget (view_v x) i in let! b := vget (view_v y) i in Ret (s + a * b))
      add zero (fun r => RDone (r + init))
  else RThrow.

(** blas1_copy_kk.hpp:48-55, for matrices whose views have different layouts (for equal layouts it calls
    Kokkos::deep_copy, not modelled) *)
Definition kk_copy_2 (x y : mat O) : par O :=
  view_m x (fun xv => view_m y (fun yv =>
  PFor (ext0 xv) (fun i => for_range 0 (ext1 xv) (fun j => let! v := mget xv i j in mset yv i j v)) PDone)).
(** blas1_swap_elements_kk.hpp:61-91 (rank 1); _my_tmp_swap (16-21) *)
Definition kk_swap_1 (x y : vec O) : par O :=
  check_eq (vext x) (vext y)
  (PFor (vext x) (fun i =>
    let! tmp := vget (view_v x) i in let! b := vget (view_v y) i in
    vset (view_v x) i b ;; vset (view_v y) i tmp) PDone).
(** blas1_swap_elements_kk.hpp:61-84, 92-99 (rank 2) *)
Definition kk_swap_2 (x y : mat O) : par O :=
  check_eq (ext0 x) (ext0 y) (check_eq (ext1 x) (ext1 y)
  (view_m x (fun xv => view_m y (fun yv =>
  PFor (ext0 xv) (fun i => for_range 0 (ext1 xv) (fun j =>
    let! tmp := mget xv i j in let! b := mget yv i j in
    mset xv i j b ;; mset yv i j tmp)) PDone)))).
End Dot.

Section Norms.
Context {O : ops} {F : rops} (M : mags O F).
Local Open Scope mag_scope.
(** reduction_identity<Scalar>::max(), the start value of Kokkos::Max (the lowest finite value; Kokkos is not
    part of /repo) *)
Variable lowest : F.
(** Kokkos::Max::join(dest, src): if (dest < src) dest = src *)
Definition kk_max (dest src : F) : F := if rltb dest src then src else dest.

(** blas1_vector_abs_sum_kk.hpp:28-37; ArithTraits::abs is the magnitude, also for complex elements *)
Definition kk_vector_abs_sum (x : vec O) (init : F) : red O F F :=
  RReduce (vext x) (fun i s => let! a := vget (view_v x) i in Ret (s + eabs M a)) radd r0
    (fun r => RDone (r + init)).
(** blas1_vector_norm2_kk.hpp:32-42 *)
Definition kk_vector_norm2 (x : vec O) (init : F) : red O F F :=
  RReduce (vext x) (fun i s => let! a := vget (view_v x) i in let t := eabs M a in Ret (s + t * t)) radd r0
    (fun r => RDone (rsqrt (r + init))).
(** blas1_vector_sum_of_squares_kk.hpp:26-53 *)
Definition kk_vector_sum_of_squares (x : vec O) (init : @sum_of_squares_result F) : red O F (@sum_of_squares_result F) :=
  RReduce (vext x) (fun i l => let! a := vget (view_v x) i in Ret (kk_max l (eabs M a))) kk_max lowest (fun sf =>
  let rsf := std_max sf (scaling_factor init) in
  RReduce (vext x) (fun i s => let! a := vget (view_v x) i in let t := eabs M a / rsf in Ret (s + t * t)) radd r0 (fun ssq =>
  RDone (Ssq rsf (ssq + scaling_factor init * scaling_factor init * scaled_sum_of_squares init / (sf * sf))))).
(** blas1_matrix_frob_norm_kk.hpp:28-70; the 1x1 case (33-36) reads the mdspan on the host *)
Definition kk_matrix_frob_norm (A : mat O) (init : F) : red O F F :=
  if (ext0 A =? 0) || (ext1 A =? 0) then RDone init
  else if (ext0 A =? 1) && (ext1 A =? 1) then
    RHost (let! a := mget A 0 0 in Ret (eabs M a)) (fun v => RDone (init + v))
  else rview_m A (fun Av =>
    let el (k : nat) := mget Av (k / ext1 Av) (k mod ext1 Av) in
    RReduce (ext0 Av * ext1 Av) (fun k l => let! a := el k in Ret (kk_max l (eabs M a))) kk_max lowest (fun sf =>
    RReduce (ext0 Av * ext1 Av) (fun k s => let! a := el k in let t := eabs M a / sf in Ret (s + t * t)) radd r0 (fun ssq =>
    RDone (rsqrt (init + sf * sf * ssq))))).
(** |A(i,0)| + |A(i,1)| + ...: blas1_matrix_inf_norm_kk.hpp:39-42 and (with the indices exchanged)
    blas1_matrix_one_norm_kk.hpp:39-42.  The first element is read without a test. *)
Definition kk_line_sum (n : nat) (el : nat -> prog O O) : prog O F :=
  let! a0 := el 0 in
  fold_range 1 n (fun j s => let! a := el j in Ret (s + eabs M a)) (eabs M a0).
(** blas1_matrix_inf_norm_kk.hpp:27-48 *)
Definition kk_matrix_inf_norm (A : mat O) (init : F) : red O F F :=
  if (ext0 A =? 0) || (ext1 A =? 0) then RDone init
  else rview_m A (fun Av =>
    RReduce (ext0 Av) (fun i l => let! s := kk_line_sum (ext1 Av) (fun j => mget Av i j) in Ret (kk_max l s)) kk_max lowest
      (fun r => RDone (init + r))).
(** blas1_matrix_one_norm_kk.hpp:27-48: only the number of columns is tested. *)
Definition kk_matrix_one_norm (A : mat O) (init : F) : red O F F :=
  if ext1 A =? 0 then RDone init
  else rview_m A (fun Av =>
    RReduce (ext1 Av) (fun j l => let! s := kk_line_sum (ext0 Av) (fun i => mget Av i j) in Ret (kk_max l s)) kk_max lowest
      (fun r => RDone (init + r))).
End Norms.

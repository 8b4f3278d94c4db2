(** The Kokkos back end: what has been carried out when an overload returns.
    Paths are relative to /repo/tpl-implementations/include/experimental/__p1673_bits/kokkos-kernels/.

    Kokkos::parallel_for only enqueues a region; ex.fence() waits for it.  KokkosBlas calls enqueue too.
    Kokkos::deep_copy(dst, src) waits before and after, Kokkos::deep_copy(ex, dst, src) enqueues (the comment at
    blas1_copy_kk.hpp:58-60).  Kokkos is not part of /repo.  Simplification: one queue, in order (an overload
    uses one default-constructed execution space; KokkosBlas may use another one, for which ex.fence() would
    not even wait).  Overloads that return a value of parallel_reduce or of KokkosBlas::dot or iamax wait for
    it and write nothing; they are not listed. *)
From Coq Require Import List Arith Lia Bool Relations.
From Verif Require Import Mem Scalar View Spec Blas2 Par KK KKBlas KKNorm.
Import ListNotations.
Set Implicit Arguments.

Section Async.
Context {O : ops}.
Notation task := (prog O unit).

(** The host's part of an overload: blas1_copy_kk.hpp:38 and 42 (launch), 61 (fence) and so on. *)
Inductive hprog :=
| HDone
| HThrow
| HIllFormed
| HLaunch (n : nat) (body : nat -> task) (k : hprog)   (* Kokkos::parallel_for *)
| HCall (c : kcall O) (k : hprog)                      (* a library call that enqueues *)
| HFence (k : hprog)                                   (* ex.fence() *)
| HHost (p : prog O unit) (k : hprog).                 (* an algorithm run by the host itself *)

(** Work in the queue (not in /repo). *)
Inductive item := Region (ts : list task) | Lib (c : kcall O).
Notation state := (hprog * list item * mem O)%type.

(** [lib c m m']: the library call c takes memory m to m'. *)
Variable lib : kcall O -> mem O -> mem O -> Prop.

(** The host and the head of the queue make steps in any order (meaning of Kokkos, not in /repo). *)
Inductive hstep : state -> state -> Prop :=
| h_launch : forall n body k q m, hstep (HLaunch n body k, q, m) (k, q ++ [Region (tasks n body)], m)
| h_call : forall c k q m, hstep (HCall c k, q, m) (k, q ++ [Lib c], m)
| h_fence : forall k m, hstep (HFence k, [], m) (k, [], m)
| h_host : forall p k q m m', run p m = Ok tt m' -> hstep (HHost p k, q, m) (k, q, m')
| d_region : forall h ts ts' q m m', region_step (ts, m) (ts', m') ->
    hstep (h, Region ts :: q, m) (h, Region ts' :: q, m')
| d_done : forall h ts q m, Forall (@finished O) ts -> hstep (h, Region ts :: q, m) (h, q, m)
| d_lib : forall h c q m m', lib c m m' -> hstep (h, Lib c :: q, m) (h, q, m').
Definition hsteps := clos_refl_trans_1n _ hstep.

(** The regions of an algorithm of KK.v or KKNorm.v, launched without waiting, then [rest]. *)
Fixpoint launch (p : par O) (rest : hprog) : hprog :=
  match p with
  | PDone => rest
  | PThrow => HThrow
  | PIllFormed => HIllFormed
  | PFor n body k => HLaunch n body (launch k rest)
  end.
(** The calls of an overload of KKBlas.v: deep_copy without an execution space waits before and after
    (blas2_triangular_matrix_vector_solve.hpp:110, blas3_matrix_product_kk.hpp:771, 868,
    blas3_triangular_matrix_matrix_solve.hpp:144, 212). *)
Fixpoint calls (p : kprog O) : hprog :=
  match p with
  | KDone => HDone
  | KThrow => HThrow
  | KIllFormed => HIllFormed
  | KInline q => HHost q HDone
  | KCall (KCopy1 d s as c) k => HFence (HCall c (HFence (calls k)))
  | KCall (KCopy2 d s as c) k => HFence (HCall c (HFence (calls k)))
  | KCall c k => HCall c (calls k)
  end.

(** * Overloads that end with a fence *)
(** blas2_matrix_rank_1_update.hpp, blas2_matrix_rank_2_update.hpp, blas3_matrix_rank_k_update.hpp and
    blas3_matrix_rank_2k_update.hpp: the traversals of parallel_matrix.hpp fence (79, 91) *)
Definition fenced (p : par O) : hprog := launch p (HFence HDone).
Definition h_matrix_rank_1_update x y A := fenced (kk_matrix_rank_1_update x y A).
Definition h_matrix_rank_1_update_conj x y A := fenced (kk_matrix_rank_1_update_conj x y A).
Definition h_symmetric_matrix_rank_1_update x A t := fenced (kk_symmetric_matrix_rank_1_update x A t).
Definition h_hermitian_matrix_rank_1_update x A t := fenced (kk_hermitian_matrix_rank_1_update x A t).
Definition h_symmetric_matrix_rank_2_update x y A t := fenced (kk_symmetric_matrix_rank_2_update x y A t).
Definition h_hermitian_matrix_rank_2_update x y A t := fenced (kk_hermitian_matrix_rank_2_update x y A t).
Definition h_symmetric_matrix_rank_k_update al A C t := fenced (kk_symmetric_matrix_rank_k_update al A C t).
Definition h_hermitian_matrix_rank_k_update al A C t := fenced (kk_hermitian_matrix_rank_k_update al A C t).
Definition h_symmetric_matrix_rank_2k_update A B C t := fenced (kk_symmetric_matrix_rank_2k_update A B C t).
Definition h_hermitian_matrix_rank_2k_update A B C t := fenced (kk_hermitian_matrix_rank_2k_update A B C t).
(** blas2_gemv_kk.hpp:170 *)
Definition h_matrix_vector_product_upd A x y z := fenced (kk_matrix_vector_product_upd A x y z).
(** blas2_symv_kk.hpp:91, 114, 213, 234 *)
Definition h_symmetric_matrix_vector_product A t x y := fenced (kk_symmetric_matrix_vector_product A t x y).
Definition h_symmetric_matrix_vector_product_upd A t x y z := fenced (kk_symmetric_matrix_vector_product_upd A t x y z).
(** blas2_hemv_kk.hpp:109, 131, 239, 261 *)
Definition h_hermitian_matrix_vector_product A t x y := fenced (kk_hermitian_matrix_vector_product A t x y).
Definition h_hermitian_matrix_vector_product_upd A t x y z := fenced (kk_hermitian_matrix_vector_product_upd A t x y z).
(** blas2_triangular_mat_vec_product.hpp:96, 120, 229, 255 *)
Definition h_triangular_matrix_vector_product A t d x y := fenced (kk_triangular_matrix_vector_product A t d x y).
Definition h_triangular_matrix_vector_product_upd A t d x y z := fenced (kk_triangular_matrix_vector_product_upd A t d x y z).
(** blas3_matrix_product_kk.hpp:185-188: for_each_matrix_element, parallel_matrix.hpp:79 *)
Definition h_symmetric_matrix_left_product A t B C := fenced (kk_symmetric_matrix_left_product A t B C).
Definition h_symmetric_matrix_left_product_upd A t B E C := fenced (kk_symmetric_matrix_left_product_upd A t B E C).
Definition h_symmetric_matrix_right_product A t B C := fenced (kk_symmetric_matrix_right_product A t B C).
Definition h_symmetric_matrix_right_product_upd A t B E C := fenced (kk_symmetric_matrix_right_product_upd A t B E C).
Definition h_hermitian_matrix_left_product A t B C := fenced (kk_hermitian_matrix_left_product A t B C).
Definition h_hermitian_matrix_left_product_upd A t B E C := fenced (kk_hermitian_matrix_left_product_upd A t B E C).
Definition h_hermitian_matrix_right_product A t B C := fenced (kk_hermitian_matrix_right_product A t B C).
Definition h_hermitian_matrix_right_product_upd A t B E C := fenced (kk_hermitian_matrix_right_product_upd A t B E C).
(** blas1_copy_kk.hpp:61, different layouts; blas1_swap_elements_kk.hpp:102 *)
Definition h_copy_2 x y := fenced (kk_copy_2 x y).
Definition h_swap_1 x y := fenced (kk_swap_1 x y).
Definition h_swap_2 x y := fenced (kk_swap_2 x y).
(** blas1_copy_kk.hpp:38 and 61, equal layouts: deep_copy(ex, y, x) enqueues, then ex.fence() *)
Definition h_deep_copy_1 (x y : vec O) : hprog := HCall (KCopy1 (view_v y) (view_v x)) (HFence HDone).
Definition h_deep_copy_2 (x y : mat O) : hprog :=
  match kb_copy_2 x y with
  | KCall c _ => HCall c (HFence HDone)
  | KThrow => HThrow
  | _ => HIllFormed
  end.

(** * Overloads that do not *)
(** trmm_left and trmm_right, blas3_matrix_product_kk.hpp:263-279, 302-318, called at 768, 815, 865, 912 *)
Definition h_triangular_matrix_left_product_unit A t B C := launch (kk_triangular_matrix_left_product_unit A t B C) HDone.
Definition h_triangular_matrix_right_product_unit A t B C := launch (kk_triangular_matrix_right_product_unit A t B C) HDone.
Definition h_triangular_matrix_left_product_inplace_unit A t C := launch (kk_triangular_matrix_left_product_inplace_unit A t C) HDone.
Definition h_triangular_matrix_right_product_inplace_unit A t C := launch (kk_triangular_matrix_right_product_inplace_unit A t C) HDone.
(** blas1_add_kk.hpp:90, blas1_scale_kk.hpp:31, blas2_gemv_kk.hpp:85, blas3_overwriting_gemm_kk.hpp:80 (165, 251),
    blas2_triangular_matrix_vector_solve.hpp:110-121, blas3_matrix_product_kk.hpp:239,
    blas3_triangular_matrix_matrix_solve.hpp:73 *)
Definition h_add_1 x y z := calls (kb_add_1 x y z).
Definition h_add_2 x y z := calls (kb_add_2 x y z).
Definition h_scale_1 al x := calls (kb_scale_1 al x).
Definition h_scale_2 al x := calls (kb_scale_2 al x).
Definition h_matrix_vector_product A x y := calls (kb_matrix_vector_product A x y).
Definition h_triangular_matrix_vector_solve A t d b x := calls (kb_triangular_matrix_vector_solve A t d b x).
Definition h_matrix_product A B C := calls (kb_matrix_product A B C).
Definition h_triangular_matrix_left_product A t B C := calls (kb_triangular_matrix_left_product A t B C).
Definition h_triangular_matrix_left_product_inplace A t C := calls (kb_triangular_matrix_left_product_inplace A t C).
Definition h_triangular_matrix_right_product A t B C := calls (kb_triangular_matrix_right_product A t B C).
Definition h_triangular_matrix_right_product_inplace A t C := calls (kb_triangular_matrix_right_product_inplace A t C).
Definition h_triangular_matrix_matrix_left_solve A t d B X := calls (kb_triangular_matrix_matrix_left_solve A t d B X).
Definition h_triangular_matrix_matrix_right_solve A t d B X := calls (kb_triangular_matrix_matrix_right_solve A t d B X).
End Async.
Arguments hprog O : clear implicits.
Arguments item O : clear implicits.

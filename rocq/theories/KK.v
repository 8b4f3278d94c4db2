(** The Kokkos back end: algorithms that run their own parallel loops.
    Paths are relative to /repo/tpl-implementations/include/experimental/__p1673_bits/kokkos-kernels/.
    The execution space is arbitrary (all schedules).  Not modelled here: calls that only delegate to
    KokkosBlas (gemv "N", gemm, trmm, trsm, trsv, axpby, dot, ...), which is not part of /repo. *)
From Coq Require Import List Arith Lia Bool.
From Verif Require Import Mem Scalar View Spec Blas2 Par.
Import ListNotations.
Set Implicit Arguments.
Local Open Scope sc_scope.
Local Open Scope prog_scope.

Section KK.
Context {O : ops}.

(** * Views *)
(** mdspan_to_view for rank 1 (mdspan_to_view_mapper_kk.hpp:55-69): Kokkos::View<T*>(data_handle, extent);
    the mapping and the accessor of the mdspan are not used, the view is contiguous. *)
Definition view_v (x : vec O) : vec O := Vec (vbase x) (vext x) (fun i => i) ADefault.
(** mdspan_to_view for rank 2 (mdspan_to_view_mapper_kk.hpp:71-89): LayoutMapper (11-22) exists only for
    layout_left and layout_right; for layout_transpose (126-145) the view of the nested layout with the
    extents exchanged, i.e. the view of the matrix before transposition. *)
Definition view_m (A : mat O) (k : mat O -> par O) : par O :=
  match mlay A with
  | LLeft => k (Mat (mbase A) (ext0 A) (ext1 A) LLeft ADefault)
  | LRight => k (Mat (mbase A) (ext0 A) (ext1 A) LRight ADefault)
  | LTrans LLeft => k (Mat (mbase A) (ext1 A) (ext0 A) LLeft ADefault)
  | LTrans LRight => k (Mat (mbase A) (ext1 A) (ext0 A) LRight ADefault)
  | _ => PIllFormed
  end.

(** [if (n != m) throw std::runtime_error(...)] *)
Definition check_eq (n m : nat) (p : par O) : par O := if n =? m then p else PThrow.

(** * Traversals *)
(** parallel_matrix.hpp:59-81 *)
Definition for_each_matrix_element (A : mat O) (action : nat -> nat -> prog O unit) : par O :=
  if ext1 A <? ext0 A
  then PFor (ext0 A) (fun i => for_range 0 (ext1 A) (fun j => action i j)) PDone
  else PFor (ext1 A) (fun j => for_range 0 (ext0 A) (fun i => action i j)) PDone.
(** parallel_matrix.hpp:83-93 (upper), 95-101 (lower: the upper traversal with exchanged indices) *)
Definition for_each_upper (A : mat O) (action : nat -> nat -> prog O unit) : par O :=
  PFor (ext1 A) (fun j => for_range 0 (j + 1) (fun i => action i j)) PDone.
Definition for_each_triangle_matrix_element (A : mat O) (t : triangle) (action : nat -> nat -> prog O unit) : par O :=
  match t with
  | Upper => for_each_upper A action
  | Lower => for_each_upper A (fun i j => action j i)
  end.

(** * Rank-1 and rank-2 updates *)
(** blas2_matrix_rank_1_update.hpp:69-105 *)
Definition kk_matrix_rank_1_update (x y : vec O) (A : mat O) : par O :=
  check_eq (ext0 A) (vext x) (check_eq (ext1 A) (vext y) (view_m A (fun Av =>
  for_each_matrix_element Av (fun i j =>
    let! xi := vget (view_v x) i in let! yj := vget (view_v y) j in macc_add Av i j (xi * yj))))).
(** blas2_matrix_rank_1_update.hpp:119-158: overload for y with a conjugated_accessor over the default
    accessor; called by matrix_rank_1_update_c with conjugated(y). *)
Definition kk_matrix_rank_1_update_conj (x y : vec O) (A : mat O) : par O :=
  check_eq (ext0 A) (vext x) (check_eq (ext1 A) (vext y) (view_m A (fun Av =>
  for_each_matrix_element Av (fun i j =>
    let! xi := vget (view_v x) i in let! yj := vget (view_v y) j in macc_add Av i j (xi * conj yj))))).
(** blas2_matrix_rank_1_update.hpp:173-207 *)
Definition kk_symmetric_matrix_rank_1_update (x : vec O) (A : mat O) (t : triangle) : par O :=
  check_eq (ext0 A) (ext1 A) (check_eq (ext0 A) (vext x) (view_m A (fun Av =>
  for_each_triangle_matrix_element Av t (fun i j =>
    let! xi := vget (view_v x) i in let! xj := vget (view_v x) j in macc_add Av i j (xi * xj))))).
(** blas2_matrix_rank_1_update.hpp:223-259 *)
Definition kk_hermitian_matrix_rank_1_update (x : vec O) (A : mat O) (t : triangle) : par O :=
  check_eq (ext0 A) (ext1 A) (check_eq (ext0 A) (vext x) (view_m A (fun Av =>
  for_each_triangle_matrix_element Av t (fun i j =>
    let! xi := vget (view_v x) i in let! xj := vget (view_v x) j in macc_add Av i j (xi * conj xj))))).
(** blas2_matrix_rank_2_update.hpp:72-114 *)
Definition kk_symmetric_matrix_rank_2_update (x y : vec O) (A : mat O) (t : triangle) : par O :=
  check_eq (ext0 A) (ext1 A) (check_eq (ext0 A) (vext x) (check_eq (ext0 A) (vext y) (view_m A (fun Av =>
  for_each_triangle_matrix_element Av t (fun i j =>
    let! xi := vget (view_v x) i in let! yj := vget (view_v y) j in
    let! yi := vget (view_v y) i in let! xj := vget (view_v x) j in
    macc_add Av i j (xi * yj + yi * xj)))))).
(** blas2_matrix_rank_2_update.hpp:133-178 *)
Definition kk_hermitian_matrix_rank_2_update (x y : vec O) (A : mat O) (t : triangle) : par O :=
  check_eq (ext0 A) (ext1 A) (check_eq (ext0 A) (vext x) (check_eq (ext0 A) (vext y) (view_m A (fun Av =>
  for_each_triangle_matrix_element Av t (fun i j =>
    let! xi := vget (view_v x) i in let! yj := vget (view_v y) j in
    let! yi := vget (view_v y) i in let! xj := vget (view_v x) j in
    macc_add Av i j (xi * conj yj + yi * conj xj)))))).

(** * Rank-k and rank-2k updates *)
(** blas3_matrix_rank_k_update.hpp:46-69 *)
Definition kk_symmetric_matrix_rank_k_update (alpha : O) (A C : mat O) (t : triangle) : par O :=
  check_eq (ext0 A) (ext0 C) (check_eq (ext0 C) (ext1 C) (view_m A (fun Av => view_m C (fun Cv =>
  for_each_triangle_matrix_element Cv t (fun i j =>
    for_range 0 (ext1 A) (fun k =>
      let! aik := mget Av i k in let! ajk := mget Av j k in macc_add Cv i j (alpha * aik * ajk))))))).
(** blas3_matrix_rank_k_update.hpp:105-129 *)
Definition kk_hermitian_matrix_rank_k_update (alpha : O) (A C : mat O) (t : triangle) : par O :=
  check_eq (ext0 A) (ext0 C) (check_eq (ext0 C) (ext1 C) (view_m A (fun Av => view_m C (fun Cv =>
  for_each_triangle_matrix_element Cv t (fun i j =>
    for_range 0 (ext1 A) (fun k =>
      let! aik := mget Av i k in let! ajk := mget Av j k in macc_add Cv i j (alpha * aik * conj ajk))))))).
(** blas3_matrix_rank_2k_update.hpp:54-84 *)
Definition kk_symmetric_matrix_rank_2k_update (A B C : mat O) (t : triangle) : par O :=
  check_eq (ext0 A) (ext0 C) (check_eq (ext0 B) (ext0 C) (check_eq (ext0 C) (ext1 C) (check_eq (ext1 A) (ext1 B)
  (view_m A (fun Av => view_m B (fun Bv => view_m C (fun Cv =>
  for_each_triangle_matrix_element Cv t (fun i j =>
    for_range 0 (ext1 A) (fun k =>
      let! aik := mget Av i k in let! bjk := mget Bv j k in
      let! bik := mget Bv i k in let! ajk := mget Av j k in
      macc_add Cv i j (aik * bjk + bik * ajk)))))))))).
(** blas3_matrix_rank_2k_update.hpp:127-159 *)
Definition kk_hermitian_matrix_rank_2k_update (A B C : mat O) (t : triangle) : par O :=
  check_eq (ext0 A) (ext0 C) (check_eq (ext0 B) (ext0 C) (check_eq (ext0 C) (ext1 C) (check_eq (ext1 A) (ext1 B)
  (view_m A (fun Av => view_m B (fun Bv => view_m C (fun Cv =>
  for_each_triangle_matrix_element Cv t (fun i j =>
    for_range 0 (ext1 A) (fun k =>
      let! aik := mget Av i k in let! bjk := mget Bv j k in
      let! bik := mget Bv i k in let! ajk := mget Av j k in
      macc_add Cv i j (aik * conj bjk + bik * conj ajk)))))))))).

(** * Matrix-vector products, one task per row *)
(** blas2_gemv_kk.hpp:135-172 (updating form; the overwriting form, 65-85, delegates to KokkosBlas::gemv) *)
Definition kk_matrix_vector_product_upd (A : mat O) (x y z : vec O) : par O :=
  check_eq (ext1 A) (vext x) (check_eq (ext0 A) (vext y) (check_eq (ext0 A) (vext z) (view_m A (fun Av =>
  PFor (vext (view_v z)) (fun i =>
    let! s := fold_range 0 (ext1 Av) (fun j s =>
        let! yi := vget (view_v y) i in let! a := mget Av i j in let! xj := vget (view_v x) j in
        Ret (s + (yi + a * xj))) zero in
    vset (view_v z) i s) PDone)))).

(** Row i of a matrix given by one triangle, times x: blas2_symv_kk.hpp:79-87, 102-110 ([fc] = identity) and
    blas2_hemv_kk.hpp:96-106, 119-129 ([fc] = Kokkos::conj). *)
Definition kk_tri_row (fc : O -> O) (A : mat O) (t : triangle) (x : vec O) (i : nat) : prog O O :=
  match t with
  | Upper =>
      let! s := fold_range i (ext1 A) (fun j s =>
                  let! a := mget A i j in let! xj := vget x j in Ret (s + a * xj)) zero in
      fold_range 0 i (fun j s => let! a := mget A j i in let! xj := vget x j in Ret (s + fc a * xj)) s
  | Lower =>
      let! s := fold_range 0 (i + 1) (fun j s =>
                  let! a := mget A i j in let! xj := vget x j in Ret (s + a * xj)) zero in
      fold_range (i + 1) (ext1 A) (fun j s => let! a := mget A j i in let! xj := vget x j in Ret (s + fc a * xj)) s
  end.
(** blas2_symv_kk.hpp:50-116 and blas2_hemv_kk.hpp:59-132 for complex elements (for other elements hemv calls
    symv, 75-77); overwriting *)
Definition kk_sy_he_mv (fc : O -> O) (A : mat O) (t : triangle) (x y : vec O) : par O :=
  check_eq (ext0 A) (ext1 A) (check_eq (ext1 A) (vext x) (check_eq (ext0 A) (vext y) (view_m A (fun Av =>
  PFor (ext0 Av) (fun i => let! s := kk_tri_row fc Av t (view_v x) i in vset (view_v y) i s) PDone)))).
(** blas2_symv_kk.hpp:169-236 and blas2_hemv_kk.hpp:185-262; updating *)
Definition kk_sy_he_mv_upd (fc : O -> O) (A : mat O) (t : triangle) (x y z : vec O) : par O :=
  check_eq (ext0 A) (ext1 A) (check_eq (ext1 A) (vext x) (check_eq (ext0 A) (vext y) (check_eq (ext0 A) (vext z)
  (view_m A (fun Av =>
  PFor (ext0 Av) (fun i =>
    let! s := kk_tri_row fc Av t (view_v x) i in
    let! yi := vget (view_v y) i in vset (view_v z) i (yi + s)) PDone))))).
Definition kk_symmetric_matrix_vector_product := kk_sy_he_mv (fun v => v).
Definition kk_symmetric_matrix_vector_product_upd := kk_sy_he_mv_upd (fun v => v).
Definition kk_hermitian_matrix_vector_product := kk_sy_he_mv conj.
Definition kk_hermitian_matrix_vector_product_upd := kk_sy_he_mv_upd conj.

(** Row i of a triangular matrix times x: blas2_triangular_mat_vec_product.hpp:84-94, 109-117 (= 221-231, 243-250) *)
Definition kk_trmv_row (A : mat O) (t : triangle) (d : diagonal) (x : vec O) (i : nat) : prog O O :=
  let lo := match t with Upper => if is_explicit d then i else (i + 1)%nat | Lower => 0 end in
  let hi := match t with Upper => ext1 A | Lower => if is_explicit d then (i + 1)%nat else i end in
  let! s := fold_range lo hi (fun j s => let! a := mget A i j in let! xj := vget x j in Ret (s + a * xj)) zero in
  if is_explicit d then Ret s else let! xi := vget x i in Ret (s + xi).
(** blas2_triangular_mat_vec_product.hpp:51-122 *)
Definition kk_triangular_matrix_vector_product (A : mat O) (t : triangle) (d : diagonal) (x y : vec O) : par O :=
  check_eq (ext0 A) (ext1 A) (check_eq (ext1 A) (vext x) (check_eq (ext0 A) (vext y) (view_m A (fun Av =>
  PFor (ext0 Av) (fun i => let! s := kk_trmv_row Av t d (view_v x) i in vset (view_v y) i s) PDone)))).
(** blas2_triangular_mat_vec_product.hpp:176-258 *)
Definition kk_triangular_matrix_vector_product_upd (A : mat O) (t : triangle) (d : diagonal) (x y z : vec O) : par O :=
  check_eq (ext0 A) (ext1 A) (check_eq (ext1 A) (vext x) (check_eq (ext0 A) (vext y) (check_eq (ext0 A) (vext z)
  (view_m A (fun Av =>
  PFor (ext0 Av) (fun i =>
    let! s := kk_trmv_row Av t d (view_v x) i in
    let! yi := vget (view_v y) i in vset (view_v z) i (yi + s)) PDone))))).

(** * Matrix-matrix products (blas3_matrix_product_kk.hpp) *)
(** check_product (66-83) and check_left_product (105-124) *)
Definition check_left (A B C : mat O) (p : par O) : par O :=
  check_eq (ext0 A) (ext1 A) (check_eq (ext1 A) (ext0 B) (check_eq (ext0 A) (ext0 C) (check_eq (ext1 B) (ext1 C) p))).
(** check_right_product (136-155) *)
Definition check_right (A B C : mat O) (p : par O) : par O :=
  check_eq (ext0 A) (ext1 A) (check_eq (ext1 B) (ext0 A) (check_eq (ext0 B) (ext0 C) (check_eq (ext1 A) (ext1 C) p))).
(** check_E (86-102) *)
Definition check_E (E C : mat O) (p : par O) : par O :=
  check_eq (ext0 E) (ext0 C) (check_eq (ext1 E) (ext1 C) p).

(** product_impl (172-189) with the init functions of product (196-218): [init] = None: cij = 0;
    Some E: cij = E_view(i,j).  [update i j k Av Bv] is the term added to cij. *)
Definition kk_product (A B : mat O) (init : option (mat O)) (C : mat O)
    (update : mat O -> mat O -> nat -> nat -> nat -> prog O O) : par O :=
  let with_E (k : option (mat O) -> par O) :=
    match init with None => k None | Some E => view_m E (fun Ev => k (Some Ev)) end in
  with_E (fun Ev => view_m A (fun Av => view_m B (fun Bv => view_m C (fun Cv =>
  for_each_matrix_element Cv (fun i j =>
    (match Ev with
     | None => mset Cv i j zero
     | Some E => let! e := mget E i j in mset Cv i j e
     end) ;;
    for_range 0 (ext1 Av) (fun k => let! e := update Av Bv i j k in macc_add Cv i j e)))))).

(** The element A(i,k) of the symmetric ([fc] = identity, 361-365 = 414-418) or Hermitian ([fc] = conj_if_needed,
    560-564 = 614-618) matrix in a left product, and the term added. *)
Definition kk_left_term (fc : O -> O) (t : triangle) (Av Bv : mat O) (i j k : nat) : prog O O :=
  let flip := match t with Lower => i <=? k | Upper => k <=? i end in
  let! a := (if flip then let! v := mget Av k i in Ret (fc v) else mget Av i k) in
  let! b := mget Bv k j in Ret (a * b).
(** The same in a right product (460-464 = 513-517; 661-665 = 715-719); B is the mdspan, not the view. *)
Definition kk_right_term (fc : O -> O) (t : triangle) (B : mat O) (Av Bv : mat O) (i j k : nat) : prog O O :=
  let flip := match t with Lower => k <=? j | Upper => j <=? k end in
  let! a := (if flip then let! v := mget Av j k in Ret (fc v) else mget Av k j) in
  let! b := mget B i k in Ret (b * a).

(** 354-366, 552-565 *)
Definition kk_sy_he_left (fc : O -> O) (A : mat O) (t : triangle) (B C : mat O) : par O :=
  check_left A B C (kk_product A B None C (kk_left_term fc t)).
(** 407-419, 606-619 *)
Definition kk_sy_he_left_upd (fc : O -> O) (A : mat O) (t : triangle) (B E C : mat O) : par O :=
  check_left A B C (check_E E C (kk_product A B (Some E) C (kk_left_term fc t))).
(** 453-465, 653-666 *)
Definition kk_sy_he_right (fc : O -> O) (A : mat O) (t : triangle) (B C : mat O) : par O :=
  check_right A B C (kk_product A B None C (kk_right_term fc t B)).
Definition kk_symmetric_matrix_left_product := kk_sy_he_left (fun v => v).
Definition kk_symmetric_matrix_left_product_upd := kk_sy_he_left_upd (fun v => v).
Definition kk_symmetric_matrix_right_product := kk_sy_he_right (fun v => v).
Definition kk_hermitian_matrix_left_product := kk_sy_he_left conj.
Definition kk_hermitian_matrix_left_product_upd := kk_sy_he_left_upd conj.
Definition kk_hermitian_matrix_right_product := kk_sy_he_right conj.
(** 506-518 *)
Definition kk_symmetric_matrix_right_product_upd (A : mat O) (t : triangle) (B E C : mat O) : par O :=
  check_right A B C (check_E E C (kk_product A B (Some E) C (kk_right_term (fun v => v) t B))).
(** 707-719: check_right_product without E *)
Definition kk_hermitian_matrix_right_product_upd (A : mat O) (t : triangle) (B E C : mat O) : par O :=
  check_right A B C (kk_product A B (Some E) C (kk_right_term conj t B)).

(** * Triangular products *)
(** Accumulation of row/column sums: k from [k0] to [k1] *)
Definition kk_sum (k0 k1 : nat) (term : nat -> prog O O) : prog O O :=
  fold_range k0 k1 (fun k s => let! e := term k in Ret (s + e)) zero.
(** trmm_left (248-280) on views *)
Definition kk_trmm_left (t : triangle) (d : diagonal) (Av Bv Cv : mat O) : par O :=
  let n := ext0 Cv in
  par_for 0 n (fun ii =>
    let i := match t with Lower => (n - 1 - ii)%nat | Upper => ii end in
    PFor (ext1 Cv) (fun j =>
      let k0 := match t with Lower => 0 | Upper => if is_explicit d then i else (i + 1)%nat end in
      let k1 := match t with Lower => if is_explicit d then (i + 1)%nat else i | Upper => n end in
      let! s := kk_sum k0 k1 (fun k => let! a := mget Av i k in let! b := mget Bv k j in Ret (a * b)) in
      let! s' := (if is_explicit d then Ret s else let! b := mget Bv i j in Ret (s + b)) in
      mset Cv i j s') PDone).
(** trmm_right (288-320) on views *)
Definition kk_trmm_right (t : triangle) (d : diagonal) (Av Bv Cv : mat O) : par O :=
  let n := ext1 Cv in
  par_for 0 n (fun jj =>
    let j := match t with Lower => jj | Upper => (n - 1 - jj)%nat end in
    PFor (ext0 Cv) (fun i =>
      let k0 := match t with Lower => if is_explicit d then j else (j + 1)%nat | Upper => 0 end in
      let k1 := match t with Lower => n | Upper => if is_explicit d then (j + 1)%nat else j end in
      let! s := kk_sum k0 k1 (fun k => let! b := mget Bv i k in let! a := mget Av k j in Ret (b * a)) in
      let! s' := (if is_explicit d then Ret s else let! b := mget Bv i j in Ret (s + b)) in
      mset Cv i j s') PDone).

(** triangular_matrix_left_product (756-774) and triangular_matrix_right_product (853-871) with an implicit
    unit diagonal.  With an explicit diagonal these call Kokkos::deep_copy and KokkosBlas::trmm (not modelled). *)
Definition kk_triangular_matrix_left_product_unit (A : mat O) (t : triangle) (B C : mat O) : par O :=
  check_left A B C (view_m A (fun Av => view_m B (fun Bv => view_m C (fun Cv =>
    kk_trmm_left t ImplicitUnit Av Bv Cv)))).
Definition kk_triangular_matrix_right_product_unit (A : mat O) (t : triangle) (B C : mat O) : par O :=
  check_right A B C (view_m A (fun Av => view_m B (fun Bv => view_m C (fun Cv =>
    kk_trmm_right t ImplicitUnit Av Bv Cv)))).
(** In-place forms (802-818, 899-915), implicit unit diagonal *)
Definition kk_triangular_matrix_left_product_inplace_unit (A : mat O) (t : triangle) (C : mat O) : par O :=
  check_left A C C (view_m A (fun Av => view_m C (fun Cv => kk_trmm_left t ImplicitUnit Av Cv Cv))).
Definition kk_triangular_matrix_right_product_inplace_unit (A : mat O) (t : triangle) (C : mat O) : par O :=
  check_right A C C (view_m A (fun Av => view_m C (fun Cv => kk_trmm_right t ImplicitUnit Av Cv Cv))).
End KK.

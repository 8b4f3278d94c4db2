(** C92: element addresses are computed exactly in the index type.  An mdspan with index type t converts the indices to t and
    computes the offset in t, with integer promotion, undefined signed overflow and modular unsigned arithmetic (MapIdx.v).
    Every inline algorithm, with counters as in C84 and such accesses to its arguments, has exactly the runs of the model with
    unbounded numbers, to which the other properties apply, whenever the preconditions of mdspan hold: t can represent the
    extents, the strides and the required span size ([addressable_m], [addressable_v]).  [uA], ... are the addresses that an
    undefined offset might give; they never matter. *)
From Coq Require Import List Arith NArith ZArith Bool Lia.
From Verif Require Import Mem Scalar View Spec Idx Ints SpecI SpecI2 SpecCt Blas1 Blas2 Blas3 Norm Counter PfCounter MapIdx SpecMi PfMapIdx PfMapIdx2 Inst.
Import ListNotations.
Set Implicit Arguments.
Local Open Scope Z_scope.

(** The offset of every element is defined and exact, for every layout that is not user-defined. *)
Theorem C92_offset : forall t l e0 e1 i j, 1 <= iwidth t -> is_number t e0 -> is_number t e1 -> strides_in t l ->
  (forall n, span_size l e0 e1 = Some n -> is_number t n) -> (i < e0)%nat -> (j < e1)%nat ->
  index_off t l e0 e1 (Some (Z.of_nat i)) (Some (Z.of_nat j)) = Some (Z.of_nat (off l e0 e1 i j)) /\ is_number t (off l e0 e1 i j).
Proof. exact index_off_ok. Qed.
Print Assumptions C92_offset.
Theorem C92_address_m : forall (O : ops) t u (A : mat O) i j, addressable_m t A -> (i < ext0 A)%nat -> (j < ext1 A)%nat ->
  maddr (indexed_m t u A) i j = maddr A i j.
Proof. exact indexed_addr_m. Qed.
Print Assumptions C92_address_m.
Theorem C92_address_v : forall (O : ops) t l u (x : vec O) i, addressable_v t l x -> (i < vext x)%nat ->
  vaddr (indexed_v t l u x) i = vaddr x i.
Proof. exact indexed_addr_v. Qed.
Print Assumptions C92_address_v.
(** transposed() keeps the preconditions, so its result needs no further condition. *)
Theorem C92_transposed : forall (O : ops) t fix_padded (A At : mat O), addressable_m t A ->
  match mlay A with LLeftPad ld => (1 <= ld /\ ext0 A <= ld)%nat | LRightPad ld => (1 <= ld /\ ext1 A <= ld)%nat | _ => True end ->
  transposed fix_padded A = Some At -> addressable_m t At.
Proof. exact transposed_addressable. Qed.
Print Assumptions C92_transposed.

Theorem C92_copy_1 : forall (O : ops) (fuel : nat) (tx ty : ikind) (x y : vec O) (lx : vlayout) (ux : nat -> nat) (ly : vlayout) (uy : nat -> nat),
  vspan fuel tx x -> vspan fuel ty y -> addressable_v tx lx x -> addressable_v ty ly y ->
  same_run (c_copy_1 fuel tx ty (indexed_v tx lx ux x) (indexed_v ty ly uy y)) (copy_1 x y).
Proof. exact copy_1_indexed. Qed.
Print Assumptions C92_copy_1.

Theorem C92_copy_2 : forall (O : ops) (fuel : nat) (tx ty : ikind) (x y : mat O) (ux : nat -> nat -> nat) (uy : nat -> nat -> nat),
  mspan fuel tx x -> mspan fuel ty y -> addressable_m tx x -> addressable_m ty y ->
  same_run (c_copy_2 fuel tx ty (indexed_m tx ux x) (indexed_m ty uy y)) (copy_2 x y).
Proof. exact copy_2_indexed. Qed.
Print Assumptions C92_copy_2.

Theorem C92_swap_1 : forall (O : ops) (fuel : nat) (tx ty : ikind) (x y : vec O) (lx : vlayout) (ux : nat -> nat) (ly : vlayout) (uy : nat -> nat),
  vspan fuel tx x -> vspan fuel ty y -> addressable_v tx lx x -> addressable_v ty ly y ->
  same_run (c_swap_1 fuel tx ty (indexed_v tx lx ux x) (indexed_v ty ly uy y)) (swap_1 x y).
Proof. exact swap_1_indexed. Qed.
Print Assumptions C92_swap_1.

Theorem C92_swap_2 : forall (O : ops) (fuel : nat) (tx ty : ikind) (x y : mat O) (ux : nat -> nat -> nat) (uy : nat -> nat -> nat),
  mspan fuel tx x -> mspan fuel ty y -> addressable_m tx x -> addressable_m ty y ->
  same_run (c_swap_2 fuel tx ty (indexed_m tx ux x) (indexed_m ty uy y)) (swap_2 x y).
Proof. exact swap_2_indexed. Qed.
Print Assumptions C92_swap_2.

Theorem C92_scale_1 : forall (O : ops) (fuel : nat) (tx : ikind) (alpha : O) (x : vec O) (lx : vlayout) (ux : nat -> nat),
  vspan fuel tx x -> addressable_v tx lx x ->
  same_run (c_scale_1 fuel tx alpha (indexed_v tx lx ux x)) (scale_1 alpha x).
Proof. exact scale_1_indexed. Qed.
Print Assumptions C92_scale_1.

Theorem C92_scale_2 : forall (O : ops) (fuel : nat) (tA : ikind) (alpha : O) (A : mat O) (uA : nat -> nat -> nat),
  mspan fuel tA A -> addressable_m tA A ->
  same_run (c_scale_2 fuel tA alpha (indexed_m tA uA A)) (scale_2 alpha A).
Proof. exact scale_2_indexed. Qed.
Print Assumptions C92_scale_2.

Theorem C92_add_1 : forall (O : ops) (fuel : nat) (tx ty tz : ikind) (x y z : vec O) (lx : vlayout) (ux : nat -> nat) (ly : vlayout) (uy : nat -> nat) (lz : vlayout) (uz : nat -> nat),
  vspan fuel tx x -> vspan fuel ty y -> vspan fuel tz z -> addressable_v tx lx x -> addressable_v ty ly y -> addressable_v tz lz z ->
  same_run (c_add_1 fuel tx ty tz (indexed_v tx lx ux x) (indexed_v ty ly uy y) (indexed_v tz lz uz z)) (add_1 x y z).
Proof. exact add_1_indexed. Qed.
Print Assumptions C92_add_1.

Theorem C92_add_2 : forall (O : ops) (fuel : nat) (tx ty tz : ikind) (x y z : mat O) (ux : nat -> nat -> nat) (uy : nat -> nat -> nat) (uz : nat -> nat -> nat),
  mspan fuel tx x -> mspan fuel ty y -> mspan fuel tz z -> addressable_m tx x -> addressable_m ty y -> addressable_m tz z ->
  same_run (c_add_2 fuel tx ty tz (indexed_m tx ux x) (indexed_m ty uy y) (indexed_m tz uz z)) (add_2 x y z).
Proof. exact add_2_indexed. Qed.
Print Assumptions C92_add_2.

Theorem C92_dot : forall (O : ops) (fuel : nat) (tv1 tv2 : ikind) (v1 v2 : vec O) (init : O) (lv1 : vlayout) (uv1 : nat -> nat) (lv2 : vlayout) (uv2 : nat -> nat),
  vspan fuel tv1 v1 -> vspan fuel tv2 v2 -> addressable_v tv1 lv1 v1 -> addressable_v tv2 lv2 v2 ->
  same_run (c_dot fuel tv1 tv2 (indexed_v tv1 lv1 uv1 v1) (indexed_v tv2 lv2 uv2 v2) init) (dot v1 v2 init).
Proof. exact dot_indexed. Qed.
Print Assumptions C92_dot.

Theorem C92_vector_idx_abs_max : forall (O : ops) (M : Type) (fuel : nat) (tv : ikind) (mag : O -> M) (ltb : M -> M -> bool) (size_max : N) (v : vec O) (lv : vlayout) (uv : nat -> nat),
  vspan fuel tv v -> addressable_v tv lv v ->
  same_run (c_vector_idx_abs_max fuel tv mag ltb size_max (indexed_v tv lv uv v)) (vector_idx_abs_max mag ltb size_max v).
Proof. exact vector_idx_abs_max_indexed. Qed.
Print Assumptions C92_vector_idx_abs_max.

Theorem C92_apply_givens_rotation : forall (O : ops) (fuel : nat) (tx ty : ikind) (x y : vec O) (c s : O) (lx : vlayout) (ux : nat -> nat) (ly : vlayout) (uy : nat -> nat),
  vspan fuel tx x -> vspan fuel ty y -> addressable_v tx lx x -> addressable_v ty ly y ->
  same_run (c_apply_givens_rotation fuel tx ty (indexed_v tx lx ux x) (indexed_v ty ly uy y) c s) (apply_givens_rotation x y c s).
Proof. exact apply_givens_rotation_indexed. Qed.
Print Assumptions C92_apply_givens_rotation.

Theorem C92_apply_givens_rotation_c : forall (O : ops) (fuel : nat) (tx ty : ikind) (x y : vec O) (c s : O) (lx : vlayout) (ux : nat -> nat) (ly : vlayout) (uy : nat -> nat),
  vspan fuel tx x -> vspan fuel ty y -> addressable_v tx lx x -> addressable_v ty ly y ->
  same_run (c_apply_givens_rotation_c fuel tx ty (indexed_v tx lx ux x) (indexed_v ty ly uy y) c s) (apply_givens_rotation_c x y c s).
Proof. exact apply_givens_rotation_c_indexed. Qed.
Print Assumptions C92_apply_givens_rotation_c.

Theorem C92_matrix_vector_product : forall (O : ops) (fuel : nat) (tA tx ty : ikind) (A : mat O) (x y : vec O) (uA : nat -> nat -> nat) (lx : vlayout) (ux : nat -> nat) (ly : vlayout) (uy : nat -> nat),
  mspan fuel tA A -> vspan fuel tx x -> vspan fuel ty y -> addressable_m tA A -> addressable_v tx lx x -> addressable_v ty ly y ->
  same_run (c_matrix_vector_product fuel tA tx ty (indexed_m tA uA A) (indexed_v tx lx ux x) (indexed_v ty ly uy y)) (matrix_vector_product A x y).
Proof. exact matrix_vector_product_indexed. Qed.
Print Assumptions C92_matrix_vector_product.

Theorem C92_matrix_vector_product_upd : forall (O : ops) (fuel : nat) (tA tx ty tz : ikind) (A : mat O) (x y z : vec O) (uA : nat -> nat -> nat) (lx : vlayout) (ux : nat -> nat) (ly : vlayout) (uy : nat -> nat) (lz : vlayout) (uz : nat -> nat),
  mspan fuel tA A -> vspan fuel tx x -> vspan fuel ty y -> vspan fuel tz z -> addressable_m tA A -> addressable_v tx lx x -> addressable_v ty ly y -> addressable_v tz lz z ->
  same_run (c_matrix_vector_product_upd fuel tA tx ty tz (indexed_m tA uA A) (indexed_v tx lx ux x) (indexed_v ty ly uy y) (indexed_v tz lz uz z)) (matrix_vector_product_upd A x y z).
Proof. exact matrix_vector_product_upd_indexed. Qed.
Print Assumptions C92_matrix_vector_product_upd.

Theorem C92_symmetric_matrix_vector_product : forall (O : ops) (fuel : nat) (tA tx ty : ikind) (A : mat O) (t : triangle) (x y : vec O) (uA : nat -> nat -> nat) (lx : vlayout) (ux : nat -> nat) (ly : vlayout) (uy : nat -> nat),
  mspan fuel tA A -> vspan fuel tx x -> vspan fuel ty y -> addressable_m tA A -> addressable_v tx lx x -> addressable_v ty ly y ->
  same_run (c_symmetric_matrix_vector_product fuel tA tx ty (indexed_m tA uA A) t (indexed_v tx lx ux x) (indexed_v ty ly uy y)) (symmetric_matrix_vector_product A t x y).
Proof. exact symmetric_matrix_vector_product_indexed. Qed.
Print Assumptions C92_symmetric_matrix_vector_product.

Theorem C92_symmetric_matrix_vector_product_upd : forall (O : ops) (fuel : nat) (tA tx ty tz : ikind) (A : mat O) (t : triangle) (x y z : vec O) (uA : nat -> nat -> nat) (lx : vlayout) (ux : nat -> nat) (ly : vlayout) (uy : nat -> nat) (lz : vlayout) (uz : nat -> nat),
  mspan fuel tA A -> vspan fuel tx x -> vspan fuel ty y -> vspan fuel tz z -> addressable_m tA A -> addressable_v tx lx x -> addressable_v ty ly y -> addressable_v tz lz z ->
  same_run (c_symmetric_matrix_vector_product_upd fuel tA tx ty tz (indexed_m tA uA A) t (indexed_v tx lx ux x) (indexed_v ty ly uy y) (indexed_v tz lz uz z)) (symmetric_matrix_vector_product_upd A t x y z).
Proof. exact symmetric_matrix_vector_product_upd_indexed. Qed.
Print Assumptions C92_symmetric_matrix_vector_product_upd.

Theorem C92_hermitian_matrix_vector_product : forall (O : ops) (fuel : nat) (tA tx ty : ikind) (A : mat O) (t : triangle) (x y : vec O) (uA : nat -> nat -> nat) (lx : vlayout) (ux : nat -> nat) (ly : vlayout) (uy : nat -> nat),
  mspan fuel tA A -> vspan fuel tx x -> vspan fuel ty y -> addressable_m tA A -> addressable_v tx lx x -> addressable_v ty ly y ->
  same_run (c_hermitian_matrix_vector_product fuel tA tx ty (indexed_m tA uA A) t (indexed_v tx lx ux x) (indexed_v ty ly uy y)) (hermitian_matrix_vector_product A t x y).
Proof. exact hermitian_matrix_vector_product_indexed. Qed.
Print Assumptions C92_hermitian_matrix_vector_product.

Theorem C92_hermitian_matrix_vector_product_upd : forall (O : ops) (fuel : nat) (tA tx ty tz : ikind) (A : mat O) (t : triangle) (x y z : vec O) (uA : nat -> nat -> nat) (lx : vlayout) (ux : nat -> nat) (ly : vlayout) (uy : nat -> nat) (lz : vlayout) (uz : nat -> nat),
  mspan fuel tA A -> vspan fuel tx x -> vspan fuel ty y -> vspan fuel tz z -> addressable_m tA A -> addressable_v tx lx x -> addressable_v ty ly y -> addressable_v tz lz z ->
  same_run (c_hermitian_matrix_vector_product_upd fuel tA tx ty tz (indexed_m tA uA A) t (indexed_v tx lx ux x) (indexed_v ty ly uy y) (indexed_v tz lz uz z)) (hermitian_matrix_vector_product_upd A t x y z).
Proof. exact hermitian_matrix_vector_product_upd_indexed. Qed.
Print Assumptions C92_hermitian_matrix_vector_product_upd.

Theorem C92_triangular_matrix_vector_product : forall (O : ops) (fuel : nat) (tA tx ty : ikind) (A : mat O) (t : triangle) (d : diagonal) (x y : vec O) (uA : nat -> nat -> nat) (lx : vlayout) (ux : nat -> nat) (ly : vlayout) (uy : nat -> nat),
  mspan fuel tA A -> vspan fuel tx x -> vspan fuel ty y -> addressable_m tA A -> addressable_v tx lx x -> addressable_v ty ly y ->
  same_run (c_triangular_matrix_vector_product fuel tA tx ty (indexed_m tA uA A) t d (indexed_v tx lx ux x) (indexed_v ty ly uy y)) (triangular_matrix_vector_product A t d x y).
Proof. exact triangular_matrix_vector_product_indexed. Qed.
Print Assumptions C92_triangular_matrix_vector_product.

Theorem C92_triangular_matrix_vector_product_upd : forall (O : ops) (fuel : nat) (tA tx ty tz : ikind) (A : mat O) (t : triangle) (d : diagonal) (x y z : vec O) (uA : nat -> nat -> nat) (lx : vlayout) (ux : nat -> nat) (ly : vlayout) (uy : nat -> nat) (lz : vlayout) (uz : nat -> nat),
  mspan fuel tA A -> vspan fuel tx x -> vspan fuel ty y -> vspan fuel tz z -> addressable_m tA A -> addressable_v tx lx x -> addressable_v ty ly y -> addressable_v tz lz z ->
  same_run (c_triangular_matrix_vector_product_upd fuel tA tx ty tz (indexed_m tA uA A) t d (indexed_v tx lx ux x) (indexed_v ty ly uy y) (indexed_v tz lz uz z)) (triangular_matrix_vector_product_upd A t d x y z).
Proof. exact triangular_matrix_vector_product_upd_indexed. Qed.
Print Assumptions C92_triangular_matrix_vector_product_upd.

Theorem C92_triangular_matrix_vector_product_inplace : forall (O : ops) (fuel : nat) (tA ty : ikind) (A : mat O) (t : triangle) (d : diagonal) (y : vec O) (uA : nat -> nat -> nat) (ly : vlayout) (uy : nat -> nat),
  mspan fuel tA A -> vspan fuel ty y -> addressable_m tA A -> addressable_v ty ly y ->
  same_run (c_triangular_matrix_vector_product_inplace fuel tA ty (indexed_m tA uA A) t d (indexed_v ty ly uy y)) (triangular_matrix_vector_product_inplace A t d y).
Proof. exact triangular_matrix_vector_product_inplace_indexed. Qed.
Print Assumptions C92_triangular_matrix_vector_product_inplace.

Theorem C92_trsv_upper : forall (O : ops) (fuel : nat) (tA tB tX : ikind) (z : ity) (divide : O -> O -> O) (A : mat O) (d : diagonal) (B X : vec O) (uA : nat -> nat -> nat) (lB : vlayout) (uB : nat -> nat) (lX : vlayout) (uX : nat -> nat),
  kind_of z = common_types tA [tB; tX] -> mspan fuel tA A -> vspan fuel tB B -> vspan fuel tX X -> addressable_m tA A -> addressable_v tB lB B -> addressable_v tX lX X ->
  same_run (c_trsv_upper fuel z divide (indexed_m tA uA A) d (indexed_v tB lB uB B) (indexed_v tX lX uX X)) (trsv_upper z divide A d B X).
Proof. exact trsv_upper_indexed. Qed.
Print Assumptions C92_trsv_upper.

Theorem C92_trsv_lower : forall (O : ops) (fuel : nat) (tA tB tX : ikind) (z : ity) (divide : O -> O -> O) (A : mat O) (d : diagonal) (B X : vec O) (uA : nat -> nat -> nat) (lB : vlayout) (uB : nat -> nat) (lX : vlayout) (uX : nat -> nat),
  kind_of z = common_types tA [tB; tX] -> mspan fuel tA A -> vspan fuel tB B -> vspan fuel tX X -> addressable_m tA A -> addressable_v tB lB B -> addressable_v tX lX X ->
  same_run (c_trsv_lower fuel z divide (indexed_m tA uA A) d (indexed_v tB lB uB B) (indexed_v tX lX uX X)) (trsv_lower divide A d B X).
Proof. exact trsv_lower_indexed. Qed.
Print Assumptions C92_trsv_lower.

Theorem C92_matrix_rank_1_update : forall (O : ops) (fuel : nat) (tx ty tA : ikind) (x y : vec O) (A : mat O) (lx : vlayout) (ux : nat -> nat) (ly : vlayout) (uy : nat -> nat) (uA : nat -> nat -> nat),
  vspan fuel tx x -> vspan fuel ty y -> mspan fuel tA A -> addressable_v tx lx x -> addressable_v ty ly y -> addressable_m tA A ->
  same_run (c_matrix_rank_1_update fuel tx ty tA (indexed_v tx lx ux x) (indexed_v ty ly uy y) (indexed_m tA uA A)) (matrix_rank_1_update x y A).
Proof. exact matrix_rank_1_update_indexed. Qed.
Print Assumptions C92_matrix_rank_1_update.

Theorem C92_symmetric_matrix_rank_1_update_alpha : forall (O : ops) (fuel : nat) (tx tA : ikind) (alpha : O) (x : vec O) (A : mat O) (t : triangle) (lx : vlayout) (ux : nat -> nat) (uA : nat -> nat -> nat),
  vspan fuel tx x -> mspan fuel tA A -> addressable_v tx lx x -> addressable_m tA A ->
  same_run (c_symmetric_matrix_rank_1_update_alpha fuel tx tA alpha (indexed_v tx lx ux x) (indexed_m tA uA A) t) (symmetric_matrix_rank_1_update_alpha alpha x A t).
Proof. exact symmetric_matrix_rank_1_update_alpha_indexed. Qed.
Print Assumptions C92_symmetric_matrix_rank_1_update_alpha.

Theorem C92_symmetric_matrix_rank_1_update : forall (O : ops) (fuel : nat) (tx tA : ikind) (x : vec O) (A : mat O) (t : triangle) (lx : vlayout) (ux : nat -> nat) (uA : nat -> nat -> nat),
  vspan fuel tx x -> mspan fuel tA A -> addressable_v tx lx x -> addressable_m tA A ->
  same_run (c_symmetric_matrix_rank_1_update fuel tx tA (indexed_v tx lx ux x) (indexed_m tA uA A) t) (symmetric_matrix_rank_1_update x A t).
Proof. exact symmetric_matrix_rank_1_update_indexed. Qed.
Print Assumptions C92_symmetric_matrix_rank_1_update.

Theorem C92_hermitian_matrix_rank_1_update_alpha : forall (O : ops) (fuel : nat) (tx tA : ikind) (alpha : O) (x : vec O) (A : mat O) (t : triangle) (lx : vlayout) (ux : nat -> nat) (uA : nat -> nat -> nat),
  vspan fuel tx x -> mspan fuel tA A -> addressable_v tx lx x -> addressable_m tA A ->
  same_run (c_hermitian_matrix_rank_1_update_alpha fuel tx tA alpha (indexed_v tx lx ux x) (indexed_m tA uA A) t) (hermitian_matrix_rank_1_update_alpha alpha x A t).
Proof. exact hermitian_matrix_rank_1_update_alpha_indexed. Qed.
Print Assumptions C92_hermitian_matrix_rank_1_update_alpha.

Theorem C92_hermitian_matrix_rank_1_update : forall (O : ops) (fuel : nat) (tx tA : ikind) (x : vec O) (A : mat O) (t : triangle) (lx : vlayout) (ux : nat -> nat) (uA : nat -> nat -> nat),
  vspan fuel tx x -> mspan fuel tA A -> addressable_v tx lx x -> addressable_m tA A ->
  same_run (c_hermitian_matrix_rank_1_update fuel tx tA (indexed_v tx lx ux x) (indexed_m tA uA A) t) (hermitian_matrix_rank_1_update x A t).
Proof. exact hermitian_matrix_rank_1_update_indexed. Qed.
Print Assumptions C92_hermitian_matrix_rank_1_update.

Theorem C92_symmetric_matrix_rank_2_update : forall (O : ops) (fuel : nat) (tx ty tA : ikind) (x y : vec O) (A : mat O) (t : triangle) (lx : vlayout) (ux : nat -> nat) (ly : vlayout) (uy : nat -> nat) (uA : nat -> nat -> nat),
  vspan fuel tx x -> vspan fuel ty y -> mspan fuel tA A -> addressable_v tx lx x -> addressable_v ty ly y -> addressable_m tA A ->
  same_run (c_symmetric_matrix_rank_2_update fuel tx ty tA (indexed_v tx lx ux x) (indexed_v ty ly uy y) (indexed_m tA uA A) t) (symmetric_matrix_rank_2_update x y A t).
Proof. exact symmetric_matrix_rank_2_update_indexed. Qed.
Print Assumptions C92_symmetric_matrix_rank_2_update.

Theorem C92_hermitian_matrix_rank_2_update : forall (O : ops) (fuel : nat) (tx ty tA : ikind) (x y : vec O) (A : mat O) (t : triangle) (lx : vlayout) (ux : nat -> nat) (ly : vlayout) (uy : nat -> nat) (uA : nat -> nat -> nat),
  vspan fuel tx x -> vspan fuel ty y -> mspan fuel tA A -> addressable_v tx lx x -> addressable_v ty ly y -> addressable_m tA A ->
  same_run (c_hermitian_matrix_rank_2_update fuel tx ty tA (indexed_v tx lx ux x) (indexed_v ty ly uy y) (indexed_m tA uA A) t) (hermitian_matrix_rank_2_update x y A t).
Proof. exact hermitian_matrix_rank_2_update_indexed. Qed.
Print Assumptions C92_hermitian_matrix_rank_2_update.

Theorem C92_matrix_product : forall (O : ops) (fuel : nat) (tA tB tC : ikind) (A B C : mat O) (uA : nat -> nat -> nat) (uB : nat -> nat -> nat) (uC : nat -> nat -> nat),
  mspan fuel tA A -> mspan fuel tB B -> mspan fuel tC C -> addressable_m tA A -> addressable_m tB B -> addressable_m tC C ->
  same_run (c_matrix_product fuel tA tB tC (indexed_m tA uA A) (indexed_m tB uB B) (indexed_m tC uC C)) (matrix_product A B C).
Proof. exact matrix_product_indexed. Qed.
Print Assumptions C92_matrix_product.

Theorem C92_matrix_product_upd : forall (O : ops) (fuel : nat) (tA tB tE tC : ikind) (A B E C : mat O) (uA : nat -> nat -> nat) (uB : nat -> nat -> nat) (uE : nat -> nat -> nat) (uC : nat -> nat -> nat),
  mspan fuel tA A -> mspan fuel tB B -> mspan fuel tE E -> mspan fuel tC C -> addressable_m tA A -> addressable_m tB B -> addressable_m tE E -> addressable_m tC C ->
  same_run (c_matrix_product_upd fuel tA tB tE tC (indexed_m tA uA A) (indexed_m tB uB B) (indexed_m tE uE E) (indexed_m tC uC C)) (matrix_product_upd A B E C).
Proof. exact matrix_product_upd_indexed. Qed.
Print Assumptions C92_matrix_product_upd.

Theorem C92_triangular_matrix_product_left : forall (O : ops) (fuel : nat) (tA tB tC : ikind) (z : ity) (A : mat O) (t : triangle) (d : diagonal) (B C : mat O) (uA : nat -> nat -> nat) (uB : nat -> nat -> nat) (uC : nat -> nat -> nat),
  kind_of z = common_types tA [tB; tC] -> mspan fuel tA A -> mspan fuel tB B -> mspan fuel tC C -> in_ptrdiff C -> addressable_m tA A -> addressable_m tB B -> addressable_m tC C ->
  same_run (c_triangular_matrix_product_left fuel tA tB tC z (indexed_m tA uA A) t d (indexed_m tB uB B) (indexed_m tC uC C)) (triangular_matrix_product_left z A t d B C).
Proof. exact triangular_matrix_product_left_indexed. Qed.
Print Assumptions C92_triangular_matrix_product_left.

Theorem C92_triangular_matrix_product_right : forall (O : ops) (fuel : nat) (tA tB tC : ikind) (z : ity) (B A : mat O) (t : triangle) (d : diagonal) (C : mat O) (uA : nat -> nat -> nat) (uB : nat -> nat -> nat) (uC : nat -> nat -> nat),
  kind_of z = common_types tA [tB; tC] -> mspan fuel tA A -> mspan fuel tB B -> mspan fuel tC C -> in_ptrdiff C -> addressable_m tA A -> addressable_m tB B -> addressable_m tC C ->
  same_run (c_triangular_matrix_product_right fuel tB tA tC z (indexed_m tB uB B) (indexed_m tA uA A) t d (indexed_m tC uC C)) (triangular_matrix_product_right z B A t d C).
Proof. exact triangular_matrix_product_right_indexed. Qed.
Print Assumptions C92_triangular_matrix_product_right.

Theorem C92_triangular_matrix_left_product : forall (O : ops) (fuel : nat) (tA tC : ikind) (A : mat O) (t : triangle) (d : diagonal) (C : mat O) (uA : nat -> nat -> nat) (uC : nat -> nat -> nat),
  mspan fuel tA A -> mspan fuel tC C -> addressable_m tA A -> addressable_m tC C ->
  same_run (c_triangular_matrix_left_product fuel tA tC (indexed_m tA uA A) t d (indexed_m tC uC C)) (triangular_matrix_left_product A t d C).
Proof. exact triangular_matrix_left_product_indexed. Qed.
Print Assumptions C92_triangular_matrix_left_product.

Theorem C92_triangular_matrix_right_product : forall (O : ops) (fuel : nat) (tA tC : ikind) (A : mat O) (t : triangle) (d : diagonal) (C : mat O) (uA : nat -> nat -> nat) (uC : nat -> nat -> nat),
  mspan fuel tA A -> mspan fuel tC C -> addressable_m tA A -> addressable_m tC C ->
  same_run (c_triangular_matrix_right_product fuel tA tC (indexed_m tA uA A) t d (indexed_m tC uC C)) (triangular_matrix_right_product A t d C).
Proof. exact triangular_matrix_right_product_indexed. Qed.
Print Assumptions C92_triangular_matrix_right_product.

Theorem C92_symmetric_matrix_product_left : forall (O : ops) (fuel : nat) (tA tB tC : ikind) (A : mat O) (t : triangle) (B C : mat O) (uA : nat -> nat -> nat) (uB : nat -> nat -> nat) (uC : nat -> nat -> nat),
  mspan fuel tA A -> mspan fuel tB B -> mspan fuel tC C -> addressable_m tA A -> addressable_m tB B -> addressable_m tC C ->
  same_run (c_symmetric_matrix_product_left fuel tA tB tC (indexed_m tA uA A) t (indexed_m tB uB B) (indexed_m tC uC C)) (symmetric_matrix_product_left A t B C).
Proof. exact symmetric_matrix_product_left_indexed. Qed.
Print Assumptions C92_symmetric_matrix_product_left.

Theorem C92_symmetric_matrix_product_right : forall (O : ops) (fuel : nat) (tB tA tC : ikind) (B A : mat O) (t : triangle) (C : mat O) (uB : nat -> nat -> nat) (uA : nat -> nat -> nat) (uC : nat -> nat -> nat),
  mspan fuel tB B -> mspan fuel tA A -> mspan fuel tC C -> addressable_m tB B -> addressable_m tA A -> addressable_m tC C ->
  same_run (c_symmetric_matrix_product_right fuel tB tA tC (indexed_m tB uB B) (indexed_m tA uA A) t (indexed_m tC uC C)) (symmetric_matrix_product_right B A t C).
Proof. exact symmetric_matrix_product_right_indexed. Qed.
Print Assumptions C92_symmetric_matrix_product_right.

Theorem C92_hermitian_matrix_product_left : forall (O : ops) (fuel : nat) (tA tB tC : ikind) (A : mat O) (t : triangle) (B C : mat O) (uA : nat -> nat -> nat) (uB : nat -> nat -> nat) (uC : nat -> nat -> nat),
  mspan fuel tA A -> mspan fuel tB B -> mspan fuel tC C -> addressable_m tA A -> addressable_m tB B -> addressable_m tC C ->
  same_run (c_hermitian_matrix_product_left fuel tA tB tC (indexed_m tA uA A) t (indexed_m tB uB B) (indexed_m tC uC C)) (hermitian_matrix_product_left A t B C).
Proof. exact hermitian_matrix_product_left_indexed. Qed.
Print Assumptions C92_hermitian_matrix_product_left.

Theorem C92_hermitian_matrix_product_right : forall (O : ops) (fuel : nat) (tB tA tC : ikind) (B A : mat O) (t : triangle) (C : mat O) (uB : nat -> nat -> nat) (uA : nat -> nat -> nat) (uC : nat -> nat -> nat),
  mspan fuel tB B -> mspan fuel tA A -> mspan fuel tC C -> addressable_m tB B -> addressable_m tA A -> addressable_m tC C ->
  same_run (c_hermitian_matrix_product_right fuel tB tA tC (indexed_m tB uB B) (indexed_m tA uA A) t (indexed_m tC uC C)) (hermitian_matrix_product_right B A t C).
Proof. exact hermitian_matrix_product_right_indexed. Qed.
Print Assumptions C92_hermitian_matrix_product_right.

Theorem C92_symmetric_matrix_rank_k_update_alpha : forall (O : ops) (fuel : nat) (tA tC : ikind) (alpha : O) (A C : mat O) (t : triangle) (uA : nat -> nat -> nat) (uC : nat -> nat -> nat),
  mspan fuel tA A -> mspan fuel tC C -> addressable_m tA A -> addressable_m tC C ->
  same_run (c_symmetric_matrix_rank_k_update_alpha fuel tA tC alpha (indexed_m tA uA A) (indexed_m tC uC C) t) (symmetric_matrix_rank_k_update_alpha alpha A C t).
Proof. exact symmetric_matrix_rank_k_update_alpha_indexed. Qed.
Print Assumptions C92_symmetric_matrix_rank_k_update_alpha.

Theorem C92_symmetric_matrix_rank_k_update : forall (O : ops) (fuel : nat) (tA tC : ikind) (A C : mat O) (t : triangle) (uA : nat -> nat -> nat) (uC : nat -> nat -> nat),
  mspan fuel tA A -> mspan fuel tC C -> addressable_m tA A -> addressable_m tC C ->
  same_run (c_symmetric_matrix_rank_k_update fuel tA tC (indexed_m tA uA A) (indexed_m tC uC C) t) (symmetric_matrix_rank_k_update A C t).
Proof. exact symmetric_matrix_rank_k_update_indexed. Qed.
Print Assumptions C92_symmetric_matrix_rank_k_update.

Theorem C92_hermitian_matrix_rank_k_update_alpha : forall (O : ops) (fuel : nat) (tA tC : ikind) (alpha : O) (A C : mat O) (t : triangle) (uA : nat -> nat -> nat) (uC : nat -> nat -> nat),
  mspan fuel tA A -> mspan fuel tC C -> addressable_m tA A -> addressable_m tC C ->
  same_run (c_hermitian_matrix_rank_k_update_alpha fuel tA tC alpha (indexed_m tA uA A) (indexed_m tC uC C) t) (hermitian_matrix_rank_k_update_alpha alpha A C t).
Proof. exact hermitian_matrix_rank_k_update_alpha_indexed. Qed.
Print Assumptions C92_hermitian_matrix_rank_k_update_alpha.

Theorem C92_hermitian_matrix_rank_k_update : forall (O : ops) (fuel : nat) (tA tC : ikind) (A C : mat O) (t : triangle) (uA : nat -> nat -> nat) (uC : nat -> nat -> nat),
  mspan fuel tA A -> mspan fuel tC C -> addressable_m tA A -> addressable_m tC C ->
  same_run (c_hermitian_matrix_rank_k_update fuel tA tC (indexed_m tA uA A) (indexed_m tC uC C) t) (hermitian_matrix_rank_k_update A C t).
Proof. exact hermitian_matrix_rank_k_update_indexed. Qed.
Print Assumptions C92_hermitian_matrix_rank_k_update.

Theorem C92_symmetric_matrix_rank_2k_update : forall (O : ops) (fuel : nat) (tA tB tC : ikind) (A B C : mat O) (t : triangle) (uA : nat -> nat -> nat) (uB : nat -> nat -> nat) (uC : nat -> nat -> nat),
  mspan fuel tA A -> mspan fuel tB B -> mspan fuel tC C -> addressable_m tA A -> addressable_m tB B -> addressable_m tC C ->
  same_run (c_symmetric_matrix_rank_2k_update fuel tA tB tC (indexed_m tA uA A) (indexed_m tB uB B) (indexed_m tC uC C) t) (symmetric_matrix_rank_2k_update A B C t).
Proof. exact symmetric_matrix_rank_2k_update_indexed. Qed.
Print Assumptions C92_symmetric_matrix_rank_2k_update.

Theorem C92_hermitian_matrix_rank_2k_update : forall (O : ops) (fuel : nat) (tA tB tC : ikind) (A B C : mat O) (t : triangle) (uA : nat -> nat -> nat) (uB : nat -> nat -> nat) (uC : nat -> nat -> nat),
  mspan fuel tA A -> mspan fuel tB B -> mspan fuel tC C -> addressable_m tA A -> addressable_m tB B -> addressable_m tC C ->
  same_run (c_hermitian_matrix_rank_2k_update fuel tA tB tC (indexed_m tA uA A) (indexed_m tB uB B) (indexed_m tC uC C) t) (hermitian_matrix_rank_2k_update A B C t).
Proof. exact hermitian_matrix_rank_2k_update_indexed. Qed.
Print Assumptions C92_hermitian_matrix_rank_2k_update.

Theorem C92_trsm_upper_left : forall (O : ops) (fuel : nat) (tA tB tX : ikind) (z : ity) (A : mat O) (d : diagonal) (B X : mat O) (uA : nat -> nat -> nat) (uB : nat -> nat -> nat) (uX : nat -> nat -> nat),
  kind_of z = common_types tA [tB; tX] -> mspan fuel tA A -> mspan fuel tB B -> mspan fuel tX X -> addressable_m tA A -> addressable_m tB B -> addressable_m tX X ->
  same_run (c_trsm_upper_left fuel z (indexed_m tA uA A) d (indexed_m tB uB B) (indexed_m tX uX X)) (trsm_upper_left z A d B X).
Proof. exact trsm_upper_left_indexed. Qed.
Print Assumptions C92_trsm_upper_left.

Theorem C92_trsm_lower_left : forall (O : ops) (fuel : nat) (tA tB tX : ikind) (z : ity) (A : mat O) (d : diagonal) (B X : mat O) (uA : nat -> nat -> nat) (uB : nat -> nat -> nat) (uX : nat -> nat -> nat),
  kind_of z = common_types tA [tB; tX] -> mspan fuel tA A -> mspan fuel tB B -> mspan fuel tX X -> addressable_m tA A -> addressable_m tB B -> addressable_m tX X ->
  same_run (c_trsm_lower_left fuel z (indexed_m tA uA A) d (indexed_m tB uB B) (indexed_m tX uX X)) (trsm_lower_left A d B X).
Proof. exact trsm_lower_left_indexed. Qed.
Print Assumptions C92_trsm_lower_left.

Theorem C92_trsm_upper_right : forall (O : ops) (fuel : nat) (tA tB tX : ikind) (z : ity) (A : mat O) (d : diagonal) (B X : mat O) (uA : nat -> nat -> nat) (uB : nat -> nat -> nat) (uX : nat -> nat -> nat),
  kind_of z = common_types tA [tB; tX] -> mspan fuel tA A -> mspan fuel tB B -> mspan fuel tX X -> addressable_m tA A -> addressable_m tB B -> addressable_m tX X ->
  same_run (c_trsm_upper_right fuel z (indexed_m tA uA A) d (indexed_m tB uB B) (indexed_m tX uX X)) (trsm_upper_right A d B X).
Proof. exact trsm_upper_right_indexed. Qed.
Print Assumptions C92_trsm_upper_right.

Theorem C92_trsm_lower_right : forall (O : ops) (fuel : nat) (tA tB tX : ikind) (z : ity) (A : mat O) (d : diagonal) (B X : mat O) (uA : nat -> nat -> nat) (uB : nat -> nat -> nat) (uX : nat -> nat -> nat),
  kind_of z = common_types tA [tB; tX] -> mspan fuel tA A -> mspan fuel tB B -> mspan fuel tX X -> addressable_m tA A -> addressable_m tB B -> addressable_m tX X ->
  same_run (c_trsm_lower_right fuel z (indexed_m tA uA A) d (indexed_m tB uB B) (indexed_m tX uX X)) (trsm_lower_right z A d B X).
Proof. exact trsm_lower_right_indexed. Qed.
Print Assumptions C92_trsm_lower_right.

Theorem C92_vector_abs_sum : forall (O : ops) (F : rops) (M : mags O F) (fuel : nat) (tv : ikind) (v : vec O) (init : F) (lv : vlayout) (uv : nat -> nat),
  vspan fuel tv v -> addressable_v tv lv v ->
  same_run (c_vector_abs_sum fuel M tv (indexed_v tv lv uv v) init) (vector_abs_sum M v init).
Proof. exact vector_abs_sum_indexed. Qed.
Print Assumptions C92_vector_abs_sum.

Theorem C92_vector_sum_of_squares : forall (O : ops) (F : rops) (M : mags O F) (fuel : nat) (tx : ikind) (x : vec O) (init : sum_of_squares_result) (lx : vlayout) (ux : nat -> nat),
  vspan fuel tx x -> addressable_v tx lx x ->
  same_run (c_vector_sum_of_squares fuel M tx (indexed_v tx lx ux x) init) (vector_sum_of_squares M x init).
Proof. exact vector_sum_of_squares_indexed. Qed.
Print Assumptions C92_vector_sum_of_squares.

Theorem C92_matrix_frob_norm : forall (O : ops) (F : rops) (M : mags O F) (fuel : nat) (tA : ikind) (A : mat O) (init : F) (uA : nat -> nat -> nat),
  mspan fuel tA A -> addressable_m tA A ->
  same_run (c_matrix_frob_norm fuel M tA (indexed_m tA uA A) init) (matrix_frob_norm M A init).
Proof. exact matrix_frob_norm_indexed. Qed.
Print Assumptions C92_matrix_frob_norm.

Theorem C92_matrix_inf_norm : forall (O : ops) (F : rops) (M : mags O F) (fuel : nat) (tA : ikind) (A : mat O) (init : F) (uA : nat -> nat -> nat),
  mspan fuel tA A -> addressable_m tA A ->
  same_run (c_matrix_inf_norm fuel M tA (indexed_m tA uA A) init) (matrix_inf_norm M A init).
Proof. exact matrix_inf_norm_indexed. Qed.
Print Assumptions C92_matrix_inf_norm.

Theorem C92_matrix_one_norm : forall (O : ops) (F : rops) (M : mags O F) (fuel : nat) (tA : ikind) (A : mat O) (init : F) (uA : nat -> nat -> nat),
  mspan fuel tA A -> addressable_m tA A ->
  same_run (c_matrix_one_norm fuel M tA (indexed_m tA uA A) init) (matrix_one_norm M A init).
Proof. exact matrix_one_norm_indexed. Qed.
Print Assumptions C92_matrix_one_norm.

(** A 2x3 matrix of 8-bit signed index type and strides 60 and 21, two vectors of other index types: y := A x. *)
Example C92_case :
  let m : mem zops := fun a => Some (Z.of_nat a) in
  let A : mat zops := Mat 10 2 3 (LStride 60 21) ADefault in
  let x : vec zops := Vec 200 3 (fun i => (i * 100)%nat) ADefault in
  let y : vec zops := Vec 500 2 (fun i => i) ADefault in
  mspan 4 (IK true 8) A /\ vspan 4 (IK false 8) x /\ vspan 4 (IK true 64) y /\
  addressable_m (IK true 8) A /\ addressable_v (IK false 8) (VStrided 100) x /\ addressable_v (IK true 64) VContiguous y /\
  succeeds (c_matrix_vector_product 4 (IK true 8) (IK false 8) (IK true 64)
      (indexed_m (IK true 8) (fun _ _ => 0%nat) A) (indexed_v (IK false 8) (VStrided 100) (fun _ => 0%nat) x)
      (indexed_v (IK true 64) VContiguous (fun _ => 0%nat) y)) m (fun _ m' =>
    vec_holds m' y (@velt zops [(10 * 200 + 31 * 300 + 52 * 400); (70 * 200 + 91 * 300 + 112 * 400)])).
Proof.
  intros m A x y.
  assert (H1 : mspan 4 (IK true 8) A) by (unfold mspan, extent_of, representable, in_range, int_max; simpl; lia).
  assert (H2 : vspan 4 (IK false 8) x) by (unfold vspan, extent_of, representable, in_range, int_max; simpl; lia).
  assert (H3 : vspan 4 (IK true 64) y) by (unfold vspan, extent_of, representable, in_range, int_max; simpl; lia).
  assert (H4 : addressable_m (IK true 8) A).
  { unfold addressable_m, strides_in, is_number, representable, in_range, int_max. simpl. unfold is_number, representable, in_range, int_max. simpl.
    repeat match goal with |- _ /\ _ => split end; try lia; try (intros n E; injection E as <-; simpl; lia). }
  assert (H5 : addressable_v (IK false 8) (VStrided 100) x).
  { unfold addressable_v, is_number, representable, in_range, int_max. simpl. repeat split; try lia. }
  assert (H6 : addressable_v (IK true 64) VContiguous y).
  { unfold addressable_v, is_number, representable, in_range, int_max. simpl. repeat split; try lia. }
  repeat (split; [assumption|]).
  eapply same_succeeds; [apply C92_matrix_vector_product; assumption|].
  do 2 eexists; split; [vm_compute; reflexivity|]. concrete.
Qed.
(** The arithmetic is not ideal: without the precondition on the span size it goes wrong.  A 16x17 matrix of unsigned 8-bit index
    type gives its last element the offset 0; with a signed 32-bit index type the offset of the last element of a
    65536x65536 matrix is undefined; so is that of an unsigned 16-bit one, whose product is computed in int, once it exceeds 2^31. *)
Example C92_needs_span :
  index_off (IK false 8) LRight 16 17 (Some 15) (Some 1) = Some 0 /\
  (let e := Z.to_nat 65536 in imul (IK true 32) (Some 65535) (num e) = None) /\
  imul (IK false 16) (Some 65535) (Some 65535) = None /\ imul (IK false 32) (Some 65536) (Some 65536) = Some 0.
Proof. split; [vm_compute; reflexivity|]. split; [unfold num; rewrite Z2Nat.id by lia; vm_compute; reflexivity|]. split; vm_compute; reflexivity. Qed.

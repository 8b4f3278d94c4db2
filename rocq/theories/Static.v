(** Extents known at compile time: the static_asserts of the BLAS 1 algorithms and the extents of transposed().
    Paths are relative to /repo/include/experimental/__p1673_bits/. *)
From Coq Require Import List Arith Bool.
Import ListNotations.

(** A static extent; [None] is dynamic_extent (template parameters of extents, e.g. transposed.hpp:56-95). *)
Definition sext : Type := option nat.

(** extents<IndexType, E0, E1> (mdspan, not in /repo): only the dynamic extents are stored. *)
Record extents2 := Extents2 { st0 : sext; st1 : sext; dyn : list nat }.
Definition extent (e : extents2) (r : bool) (* false: 0, true: 1 *) : nat :=
  match (if r then st1 e else st0 e) with
  | Some n => n
  | None => nth (if r then match st0 e with None => 1 | Some _ => 0 end else 0) (dyn e) 0
  end.
(** One stored number for each dynamic extent: an invariant of extents (mdspan, not in /repo). *)
Definition stored_ok (e : extents2) : Prop :=
  length (dyn e) = (match st0 e with None => 1 | Some _ => 0 end) + (match st1 e with None => 1 | Some _ => 0 end).

(** transpose_extents_t and transpose_extents, transposed.hpp:56-95 *)
Definition transpose_extents (e : extents2) : extents2 :=
  match st0 e, st1 e with
  | None, None => Extents2 (st1 e) (st0 e) [extent e true; extent e false]
  | None, Some _ => Extents2 (st1 e) (st0 e) [extent e false]
  | Some _, None => Extents2 (st1 e) (st0 e) [extent e true]
  | Some _, Some _ => Extents2 (st1 e) (st0 e) []
  end.

(** static_assert(a == dynamic_extent || b == dynamic_extent || a == b), e.g. blas1_dot.hpp:98-100 *)
Definition check2 (a b : sext) : bool :=
  match a with None => true | Some m => match b with None => true | Some n => m =? n end end.

(** The checks of one call; arguments are the static extents.
    dot (blas1_dot.hpp:98-100, 127-129), apply_givens_rotation (blas1_givens.hpp:395-397, 490-492). *)
Definition dot_compiles (v1 v2 : sext) : bool := check2 v1 v2.
Definition givens_compiles (x y : sext) : bool := check2 x y.
(** blas1_linalg_copy.hpp:67-69 and 92-97; blas1_linalg_swap.hpp:69-71 and 97-102 *)
Definition copy_1_compiles (x y : sext) : bool := check2 x y.
Definition copy_2_compiles (x y : sext * sext) : bool := check2 (fst x) (fst y) && check2 (snd x) (snd y).
Definition swap_1_compiles (x y : sext) : bool := check2 x y.
Definition swap_2_compiles (x y : sext * sext) : bool := check2 (fst x) (fst y) && check2 (snd x) (snd y).
(** blas1_linalg_add.hpp:73-81 *)
Definition add_1_compiles (x y z : sext) : bool := check2 x z && check2 y z && check2 x y.
(** blas1_linalg_add.hpp:112-130 *)
Definition add_2_compiles (x y z : sext * sext) : bool :=
  check2 (fst x) (fst z) && check2 (fst y) (fst z) && check2 (fst x) (fst y) &&
  check2 (snd x) (snd z) && check2 (snd y) (snd z) && check2 (snd x) (snd y).
(** The products check nothing: blas2_matrix_vector_product.hpp:275-307, blas3_matrix_product.hpp:655-732 *)
Definition matrix_vector_product_compiles (A : sext * sext) (x y : sext) : bool := true.
Definition matrix_product_compiles (A B C : sext * sext) : bool := true.

(** layout_blas_packed: one triangle of a square matrix, packed without gaps.
    /repo only declares the class template (include/experimental/__p1673_bits/layout_triangle.hpp:106-107), uses it in
    transposed.hpp:338-357 and recognises it in the Kokkos back end (triangle.hpp:57-81); the mapping itself is the one of
    the C++ working draft, [linalg.layout.packed.obs], supplied by the user. *)
From Coq Require Import Arith Bool.
From Verif Require Import Scalar View Spec LayoutG.

(** operator() of the mapping ([linalg.layout.packed.obs], not in /repo): outside the triangle it is that of the mirrored
    element.  [n] is the extent. *)
Definition packed_in (t : triangle) (o : order) (n i j : nat) : nat :=
  match o, t with
  | ColMajor, Upper => i + j * (j + 1) / 2
  | ColMajor, Lower => i + n * j - j * (j + 1) / 2
  | RowMajor, Upper => j + n * i - i * (i + 1) / 2
  | RowMajor, Lower => j + i * (i + 1) / 2
  end.
Definition packed_off (t : triangle) (o : order) (n i j : nat) : nat :=
  if match t with Upper => i <=? j | Lower => j <=? i end then packed_in t o n i j else packed_in t o n j i.
(** A rank-2 mdspan with this layout (layout_triangle.hpp:106-107). *)
Definition packed_mat {O : ops} (base n : nat) (t : triangle) (o : order) (c : acc O) : mat O :=
  Mat base n n (LUser (packed_off t o n)) c.
(** opposite_triangle_t (transposed.hpp:338-342) and transposed of a packed mdspan: transposed_layout<layout_blas_packed>
    (344-357), transposed (364-376). *)
Definition opposite_triangle (t : triangle) : triangle := match t with Upper => Lower | Lower => Upper end.
Definition packed_transposed {O : ops} (base n : nat) (t : triangle) (o : order) (c : acc O) : mat O :=
  packed_mat base n (opposite_triangle t) (opposite o) c.
(** triangle_layout_match_v for layout_blas_packed (kk/triangle.hpp:68-81), asserted by the Kokkos overloads, for instance at
    kk/blas2_matrix_rank_1_update.hpp:184: the tag [t'] of the call against the triangle [t] of the layout. *)
Definition triangle_layout_match (t t' : triangle) : bool :=
  match t, t' with Upper, Upper | Lower, Lower => true | _, _ => false end.

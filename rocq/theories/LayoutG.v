(** layout_blas_general (layout_blas_general.hpp) and its transposition (transposed.hpp:317-336).
    The class template __layout_blas_impl is modelled with layout_left::mapping or layout_right::mapping as base
    mapping and a dynamic leading dimension.  (The member alias mapping of layout_blas_general, 191-201, is private and
    passes the layout instead of its mapping, so the layout cannot be used in an mdspan.)
    Paths are relative to /repo/include/experimental/__p1673_bits/. *)
From Coq Require Import Arith Bool.
From Verif Require Import View.

(** column_major_t and row_major_t, layout_tags.hpp:56-59 *)
Inductive order := ColMajor | RowMajor.
(** Extents and leading dimension of __layout_blas_impl, layout_blas_general.hpp:54-80 *)
Record bgen := Bgen { bg_order : order; bg_ext0 : nat; bg_ext1 : nat; bg_lda : nat }.
(** layout_blas_general.hpp:191-201 *)
Definition base_of (o : order) : layout := match o with ColMajor => LLeft | RowMajor => LRight end.
(** Constructors: layout_blas_general.hpp:82-87 (extents only), 89-95 (extents and leading dimension) *)
Definition bg_of_extents (o : order) (e0 e1 : nat) : bgen := Bgen o e0 e1 1.
Definition bg_of_lda (o : order) (e0 e1 lda : nat) : bgen := Bgen o e0 e1 lda.
(** layout_blas_general.hpp:138-142, operator() *)
Definition bg_off (b : bgen) (i j : nat) : nat := bg_lda b * off (base_of (bg_order b)) (bg_ext0 b) (bg_ext1 b) i j.
(** layout_blas_general.hpp:144-145, is_unique and is_contiguous *)
Definition bg_is_unique (b : bgen) : bool := true.
Definition bg_is_contiguous (b : bgen) : bool := bg_lda b =? 1.
(** layout_blas_general.hpp:154-162, required_span_size and stride, in terms of those of the base mapping *)
Definition bg_span (b : bgen) : nat := bg_ext0 b * bg_ext1 b * bg_lda b.
Definition bg_stride (b : bgen) (r : bool) (* false: 0, true: 1 *) : nat :=
  match bg_order b with
  | ColMajor => (if r then bg_ext0 b else 1) * bg_lda b
  | RowMajor => (if r then 1 else bg_ext1 b) * bg_lda b
  end.
(** opposite_storage_t and transposed_layout<layout_blas_general>::mapping, transposed.hpp:317-336 *)
Definition opposite (o : order) : order := match o with ColMajor => RowMajor | RowMajor => ColMajor end.
Definition bg_transposed (b : bgen) : bgen :=
  Bgen (opposite (bg_order b)) (bg_ext1 b) (bg_ext0 b)
    (match bg_order b with ColMajor => bg_stride b true | RowMajor => bg_stride b false end).

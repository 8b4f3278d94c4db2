(** mdspan views: accessors, layouts, rank-1 and rank-2 views, element access, and the view-creating
    functions scaled, conjugated, transposed, conjugate_transposed.
    Paths are relative to /repo/include/experimental/__p1673_bits/. *)
From Coq Require Import List Arith Lia Bool.
From Verif Require Import Mem Scalar.
Import ListNotations.
Set Implicit Arguments.

(** * Accessors *)

(** default_accessor (mdspan reference implementation, not in /repo), scaled_accessor
    (scaled.hpp:53-106) and conjugated_accessor (conjugated.hpp:53-95).
    Simplification: the scaling factor has the element type. *)
Inductive acc (O : ops) :=
| ADefault
| AScaled (alpha : O) (nested : acc O)
| AConj (nested : acc O).
Arguments ADefault {O}.
Arguments AScaled {O} _ _.
Arguments AConj {O} _.

(** Value obtained through an accessor from the stored value: default_accessor::access is the cell
    itself; scaled_accessor::access (scaled.hpp:86-88) is scaling_factor_ * nested; and
    conjugated_accessor::access (conjugated.hpp:79-83) is conj_if_needed(nested). *)
Fixpoint acc_read {O : ops} (c : acc O) (v : O) : O :=
  match c with
  | ADefault => v
  | AScaled alpha c' => (alpha * acc_read c' v)%sc
  | AConj c' => conj (acc_read c' v)
  end.

(** * Layouts (rank 2) *)

(** layout_left / layout_right / layout_stride and the padded layouts are those of the mdspan
    reference implementation (not in /repo); [LTrans] is layout_transpose (transposed.hpp:98-186);
    [LUser f] is any other (user-defined) layout, with an arbitrary offset function. *)
Inductive layout :=
| LLeft | LRight
| LStride (s0 s1 : nat)
| LLeftPad (ld : nat)     (* layout_left_padded; ld is the padded stride, stride(1) *)
| LRightPad (ld : nat)    (* layout_right_padded; ld is the padded stride, stride(0) *)
| LTrans (l : layout)
| LUser (f : nat -> nat -> nat).

(** mapping::operator()(i,j); for [LTrans]: transposed.hpp:132-138, nested_mapping_(j,i) where the
    nested mapping has the transposed extents (transposed.hpp:106-107). *)
Fixpoint off (l : layout) (e0 e1 i j : nat) : nat :=
  match l with
  | LLeft => i + e0 * j
  | LRight => i * e1 + j
  | LStride s0 s1 => i * s0 + j * s1
  | LLeftPad ld => i + ld * j
  | LRightPad ld => i * ld + j
  | LTrans l' => off l' e1 e0 j i
  | LUser f => f i j
  end.

(** mapping::stride(r); [None] when the mapping is not known to be strided.  For [LTrans]:
    transposed.hpp:168-173. *)
Fixpoint stride (l : layout) (e0 e1 : nat) (r : bool) (* false: 0, true: 1 *) : option nat :=
  match l with
  | LLeft => Some (if r then e0 else 1)
  | LRight => Some (if r then 1 else e1)
  | LStride s0 s1 => Some (if r then s1 else s0)
  | LLeftPad ld => Some (if r then ld else 1)
  | LRightPad ld => Some (if r then 1 else ld)
  | LTrans l' => stride l' e1 e0 (negb r)
  | LUser _ => None
  end.

(** mapping::required_span_size(); [None]: unknown for a user layout.  For [LTrans]:
    transposed.hpp:126-130 (that of the nested mapping).  layout_stride: 0 for an empty index space,
    else 1 + sum (extent-1)*stride; left/right: the product of extents; padded: 0 if empty, else one
    past the offset of the last element (mdspan standard wording). *)
Fixpoint span_size (l : layout) (e0 e1 : nat) : option nat :=
  match l with
  | LLeft | LRight => Some (e0 * e1)
  | LStride s0 s1 =>
      Some (if (e0 * e1 =? 0) then 0 else 1 + (e0 - 1) * s0 + (e1 - 1) * s1)
  | LLeftPad ld => Some (if (e0 * e1 =? 0) then 0 else (e0 - 1) + ld * (e1 - 1) + 1)
  | LRightPad ld => Some (if (e0 * e1 =? 0) then 0 else (e0 - 1) * ld + (e1 - 1) + 1)
  | LTrans l' => span_size l' e1 e0
  | LUser _ => None
  end.

(** LEAST-MULTIPLE-AT-LEAST of the padded layouts (P2642 wording, mdspan reference implementation). *)
Definition least_multiple_at_least (a b : nat) : nat :=
  if a =? 0 then b else ((b + a - 1) / a) * a.

(** transposed_layout<Layout>::mapping (transposed.hpp:209-362).  [fix_padded] is the macro
    LINALG_FIX_TRANSPOSED_FOR_PADDED_LAYOUTS (273, 315).  Result [None]: transposed_layout<
    layout_transpose<N>> (359-362) has no member function [mapping], so the call at 372 does not compile.
    The padded cases construct the output mapping from the transposed extents and the original padded
    stride (287-291, 308-312); that constructor takes the least multiple of the padding value not
    below the relevant extent.  [e0 e1] are the original extents.
    layout_blas_general (323-336) is in LayoutG.v, layout_blas_packed (338-357) in Packed.v. *)
Definition transposed_layout (fix_padded : bool) (l : layout) (e0 e1 : nat) : option layout :=
  match l with
  | LLeft => Some LRight
  | LRight => Some LLeft
  | LStride s0 s1 => Some (LStride s1 s0)
  | LLeftPad ld => Some (if fix_padded then LRightPad (least_multiple_at_least ld e0) else LTrans l)
  | LRightPad ld => Some (if fix_padded then LLeftPad (least_multiple_at_least ld e1) else LTrans l)
  | LTrans _ => None
  | LUser _ => Some (LTrans l)
  end.

(** * Views *)

(** Rank-1 mdspan: data handle, extent, mapping (an arbitrary offset function, so every layout is
    covered), accessor. *)
Record vec (O : ops) := Vec { vbase : nat; vext : nat; voff : nat -> nat; vacc : acc O }.
Arguments Vec {O} _ _ _ _.
Arguments vbase {O} _. Arguments vext {O} _. Arguments voff {O} _ _. Arguments vacc {O} _.

(** Rank-2 mdspan: data handle, extents, layout, accessor. *)
Record mat (O : ops) := Mat { mbase : nat; ext0 : nat; ext1 : nat; mlay : layout; macc : acc O }.
Arguments Mat {O} _ _ _ _ _.
Arguments mbase {O} _. Arguments ext0 {O} _. Arguments ext1 {O} _. Arguments mlay {O} _. Arguments macc {O} _.

Definition vaddr {O} (x : vec O) (i : nat) : nat := vbase x + voff x i.
Definition maddr {O} (A : mat O) (i j : nat) : nat :=
  mbase A + off (mlay A) (ext0 A) (ext1 A) i j.

(** mdspan element access: reading x(i), A(i,j).  An index outside the extents violates mdspan's
    precondition: undefined behaviour. *)
Definition vget {O} (x : vec O) (i : nat) : prog O O :=
  if i <? vext x then Get (vaddr x i) (fun v => Ret (acc_read (vacc x) v)) else Fail OutOfBounds.
Definition mget {O} (A : mat O) (i j : nat) : prog O O :=
  if (i <? ext0 A) && (j <? ext1 A)
  then Get (maddr A i j) (fun v => Ret (acc_read (macc A) v)) else Fail OutOfBounds.

(** Assignment x(i) = v, A(i,j) = v.  scaled_accessor and conjugated_accessor have a value type as
    [reference] (scaled.hpp:58, conjugated.hpp:60), so assignment only compiles for the default one. *)
Definition vset {O} (x : vec O) (i : nat) (v : O) : prog O unit :=
  match vacc x with
  | ADefault => if i <? vext x then Put (vaddr x i) v (Ret tt) else Fail OutOfBounds
  | _ => Fail NotWritable
  end.
Definition mset {O} (A : mat O) (i j : nat) (v : O) : prog O unit :=
  match macc A with
  | ADefault => if (i <? ext0 A) && (j <? ext1 A)
                then Put (maddr A i j) v (Ret tt) else Fail OutOfBounds
  | _ => Fail NotWritable
  end.

(** * View-creating functions *)

(** scaled.hpp:117-131 *)
Definition scaled_v {O : ops} (alpha : O) (x : vec O) : vec O :=
  Vec (vbase x) (vext x) (voff x) (AScaled alpha (vacc x)).
Definition scaled_m {O : ops} (alpha : O) (A : mat O) : mat O :=
  Mat (mbase A) (ext0 A) (ext1 A) (mlay A) (AScaled alpha (macc A)).

(** The accessor chosen by conjugated: conjugated.hpp:131-139 unwraps a conjugated_accessor;
    conjugated.hpp:97-128 otherwise wraps, except that with the macro
    LINALG_FIX_CONJUGATED_FOR_NONCOMPLEX ([fix_nc], 106-118) a noncomplex element type
    ([noncomplex]: arithmetic or without ADL conj) keeps its accessor. *)
Definition conj_acc {O} (fix_nc noncomplex : bool) (c : acc O) : acc O :=
  match c with
  | AConj c' => c'
  | _ => if fix_nc && noncomplex then c else AConj c
  end.
Definition conjugated_v {O} (fix_nc noncomplex : bool) (x : vec O) : vec O :=
  Vec (vbase x) (vext x) (voff x) (conj_acc fix_nc noncomplex (vacc x)).
Definition conjugated_m {O} (fix_nc noncomplex : bool) (A : mat O) : mat O :=
  Mat (mbase A) (ext0 A) (ext1 A) (mlay A) (conj_acc fix_nc noncomplex (macc A)).

(** transposed.hpp:365-375: same data handle and accessor, transposed extents (72-95). *)
Definition transposed {O} (fix_padded : bool) (A : mat O) : option (mat O) :=
  match transposed_layout fix_padded (mlay A) (ext0 A) (ext1 A) with
  | Some l => Some (Mat (mbase A) (ext1 A) (ext0 A) l (macc A))
  | None => None
  end.

(** conjugate_transposed.hpp:54-58: conjugated(transposed(a)). *)
Definition conjugate_transposed {O} (fix_padded fix_nc noncomplex : bool) (A : mat O) : option (mat O) :=
  match transposed fix_padded A with
  | Some At => Some (conjugated_m fix_nc noncomplex At)
  | None => None
  end.

(** mdspan of any rank, and the rank dispatch of the inline overloads of copy, swap_elements, scale
    and add.  Paths are relative to /repo/include/experimental/__p1673_bits/. *)
From Coq Require Import List Arith Bool.
From Verif Require Import Mem Scalar View Blas1.
Import ListNotations.
Set Implicit Arguments.

(** mdspan<ElementType, extents<SizeType, ext...>, Layout, Accessor> (mdspan reference
    implementation, not in /repo): sizeof...(ext), the extents, the mapping from index tuples to
    offsets, the data handle and the accessor. *)
Record obj (O : ops) := Obj {
  orank : nat; oext : nat -> nat; ooff : list nat -> nat; obase : nat; oacc : acc O }.
Arguments Obj {O} _ _ _ _ _.
Arguments orank {O} _. Arguments oext {O} _ _. Arguments ooff {O} _ _.
Arguments obase {O} _. Arguments oacc {O} _.

Section Dispatch.
Context {O : ops}.

(** A rank-1 object as copy_rank_1 etc. see it (the parameter types of
    blas1_linalg_copy.hpp:63-65, blas1_linalg_swap.hpp:65-67, blas1_scale.hpp:59-61,
    blas1_linalg_add.hpp:68-71). *)
Definition as_vec (x : obj O) : vec O := Vec (obase x) (oext x 0) (fun i => ooff x [i]) (oacc x).

(** A rank-2 object as copy_rank_2 etc. see it (blas1_linalg_copy.hpp:88-90,
    blas1_linalg_swap.hpp:93-95, blas1_scale.hpp:75-77, blas1_linalg_add.hpp:107-110). *)
Definition as_mat (x : obj O) : mat O :=
  Mat (obase x) (oext x 0) (oext x 1) (LUser (fun i j => ooff x [i; j])) (oacc x).

(** blas1_linalg_copy.hpp:129-154; [None]: the constraint of 140 rejects the call. *)
Definition copy_any (x y : obj O) : option (prog O unit) :=
  if (orank x =? orank y) && (orank x <=? 2) then
    Some (if orank x =? 1 then copy_1 (as_vec x) (as_vec y)
          else if orank x =? 2 then copy_2 (as_mat x) (as_mat y)
          else Ret tt)
  else None.

(** blas1_linalg_swap.hpp:134-160; [None]: the constraint of 145 or the static_assert of 152. *)
Definition swap_any (x y : obj O) : option (prog O unit) :=
  if orank x =? orank y then
    if orank x <=? 2 then
      Some (if (orank x =? 1) && (orank y =? 1) then swap_1 (as_vec x) (as_vec y)
            else if (orank x =? 2) && (orank y =? 2) then swap_2 (as_mat x) (as_mat y)
            else Ret tt)
    else None
  else None.

(** blas1_scale.hpp:105-124; [None]: the static_assert of 116. *)
Definition scale_any (alpha : O) (x : obj O) : option (prog O unit) :=
  if orank x <=? 2 then
    Some (if orank x =? 1 then scale_1 alpha (as_vec x)
          else if orank x =? 2 then scale_2 alpha (as_mat x)
          else Ret tt)
  else None.

(** blas1_linalg_add.hpp:163-198; [None]: the constraint of 180 or the static_assert of 190. *)
Definition add_any (x y z : obj O) : option (prog O unit) :=
  if (orank x =? orank y) && (orank x =? orank z) then
    if orank z <=? 2 then
      Some (if orank z =? 1 then add_1 (as_vec x) (as_vec y) (as_vec z)
            else if orank z =? 2 then add_2 (as_mat x) (as_mat y) (as_mat z)
            else Ret tt)
    else None
  else None.

End Dispatch.

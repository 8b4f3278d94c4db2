(** vector_idx_abs_max with every load of the source; the model in Blas1.v merges loads of one element that follow each other. *)
From Coq Require Import List Arith NArith.
From Verif Require Import Mem Scalar View.
Set Implicit Arguments.
Local Open Scope prog_scope.

Section Acc.
Context {O : ops} {M : Type}.

(** blas1_vector_idx_abs_max.hpp:83-99: [mag] is abs; v(i) is read again (93) when it is larger. *)
Definition idx_abs_max_arithmetic (mag : O -> M) (ltb : M -> M -> bool) (size_max : N) (v : vec O) : prog O N :=
  if vext v =? 0 then Ret size_max
  else
    let! v0 := vget v 0 in
    let! r := fold_range 1 (vext v) (fun i acc =>
                let! vi := vget v i in
                if ltb (snd acc) (mag vi) then let! vi' := vget v i in Ret (i, mag vi') else Ret acc)
              (0, mag v0) in
    Ret (N.of_nat (fst r)).

(** blas1_vector_idx_abs_max.hpp:83-86, 100-116: every element is read twice, for the absolute values of its real part
    ([mre]) and of its imaginary part ([mim]); [plus] is the + of the magnitude type. *)
Definition idx_abs_max_complex (mre mim : O -> M) (plus : M -> M -> M) (ltb : M -> M -> bool) (size_max : N) (v : vec O) : prog O N :=
  if vext v =? 0 then Ret size_max
  else
    let! a0 := vget v 0 in
    let! b0 := vget v 0 in
    let! r := fold_range 1 (vext v) (fun i acc =>
                let! a := vget v i in
                let! b := vget v i in
                let val := plus (mre a) (mim b) in
                Ret (if ltb (snd acc) val then (i, val) else acc))
              (0, plus (mre a0) (mim b0)) in
    Ret (N.of_nat (fst r)).
End Acc.

(** Norms and sums of magnitudes: vector_abs_sum, vector_sum_of_squares, vector_two_norm,
    matrix_frob_norm, matrix_inf_norm, matrix_one_norm (the inline implementations). *)
From Coq Require Import List Arith Bool.
From Verif Require Import Mem Scalar View.
Set Implicit Arguments.
Local Open Scope prog_scope.

(** Operations of the real magnitude type (the Scalar template parameter, e.g. blas1_vector_norm2.hpp:82).
    No law is assumed.  Simplification: Scalar and the type returned by abs are the same type. *)
Record rops := Rops {
  rcar :> Type;
  r0 : rcar;
  r1 : rcar;
  radd : rcar -> rcar -> rcar;
  rsub : rcar -> rcar -> rcar;
  rmul : rcar -> rcar -> rcar;
  rdiv : rcar -> rcar -> rcar;
  rsqrt : rcar -> rcar;
  rabs : rcar -> rcar;
  rltb : rcar -> rcar -> bool;
  reqb : rcar -> rcar -> bool
}.
Arguments r0 {r}. Arguments r1 {r}. Arguments radd {r}. Arguments rsub {r}. Arguments rmul {r}.
Arguments rdiv {r}. Arguments rsqrt {r}. Arguments rabs {r}. Arguments rltb {r}. Arguments reqb {r}.
Declare Scope mag_scope.
Delimit Scope mag_scope with mg.
Infix "+" := radd : mag_scope.
Infix "*" := rmul : mag_scope.
Infix "/" := rdiv : mag_scope.

(** How an element type maps to magnitudes: whether is_arithmetic_v holds, std::abs / ADL abs
    (abs_if_needed.hpp:67-81), real_if_needed (real_if_needed.hpp:63-88) and imag_if_needed
    (imag_if_needed.hpp:63-88), the latter two in the real type as in C++. *)
Record mags (O : ops) (F : rops) := Mags {
  arithmetic : bool;
  eabs : O -> F;
  ereal : O -> F;
  eimag : O -> F
}.

Section Norm.
Context {O : ops} {F : rops} (M : mags O F).
Local Open Scope mag_scope.

(** std::max(a, b): (a < b) ? b : a *)
Definition std_max (a b : F) : F := if rltb a b then b else a.

(** blas1_vector_abs_sum.hpp:82-108 *)
Definition vector_abs_sum (v : vec O) (init : F) : prog O F :=
  if arithmetic M then
    fold_range 0 (vext v) (fun i s => let! x := vget v i in Ret (s + eabs M x)) init
  else
    fold_range 0 (vext v) (fun i s =>
      let! x := vget v i in
      let s1 := s + rabs (ereal M x) in
      let! x' := vget v i in
      Ret (s1 + rabs (eimag M x'))) init.
(** blas1_vector_abs_sum.hpp:161-171: value-initialised init. *)
Definition vector_abs_sum_noinit (v : vec O) : prog O F := vector_abs_sum v r0.

(** sum_of_squares_result (blas1_vector_sum_of_squares.hpp:54-59) *)
Record sum_of_squares_result := Ssq { scaling_factor : F; scaled_sum_of_squares : F }.

(** blas1_vector_sum_of_squares.hpp:107-120, one iteration (abs(x(i)) is evaluated twice). *)
Definition ssq_step (x : vec O) (i : nat) (s : sum_of_squares_result) : prog O sum_of_squares_result :=
  let! a := vget x i in
  if reqb (eabs M a) r0 then Ret s
  else
    let! a' := vget x i in
    let absxi := eabs M a' in
    if rltb (scaling_factor s) absxi then
      let q := scaling_factor s / absxi in
      Ret (Ssq absxi (r1 + scaled_sum_of_squares s * q * q))
    else
      let q := absxi / scaling_factor s in
      Ret (Ssq (scaling_factor s) (scaled_sum_of_squares s + q * q)).
(** blas1_vector_sum_of_squares.hpp:91-126 *)
Definition vector_sum_of_squares (x : vec O) (init : sum_of_squares_result) : prog O sum_of_squares_result :=
  if vext x =? 0 then Ret init
  else fold_range 0 (vext x) (ssq_step x) init.

(** blas1_vector_norm2.hpp:83-100 *)
Definition vector_two_norm (x : vec O) (init : F) : prog O F :=
  let! r := vector_sum_of_squares x (Ssq r0 r1) in
  Ret (init + scaling_factor r * rsqrt (scaled_sum_of_squares r)).
(** blas1_vector_norm2.hpp:157-163 *)
Definition vector_two_norm_noinit (x : vec O) : prog O F := vector_two_norm x r0.

(** blas1_matrix_frob_norm.hpp:109-123, body of the inner loop: the quotient is computed before the
    comparison and used in both branches. *)
Definition frob_step (A : mat O) (i j : nat) (s : sum_of_squares_result) : prog O sum_of_squares_result :=
  let! a := mget A i j in
  let absaij := eabs M a in
  if reqb absaij r0 then Ret s
  else
    let q := scaling_factor s / absaij in
    if rltb (scaling_factor s) absaij then
      Ret (Ssq absaij (r1 + scaled_sum_of_squares s * q * q))
    else
      Ret (Ssq (scaling_factor s) (scaled_sum_of_squares s + q * q)).
(** blas1_matrix_frob_norm.hpp:87-126 *)
Definition matrix_frob_norm (A : mat O) (init : F) : prog O F :=
  if (ext0 A =? 0) || (ext1 A =? 0) then Ret init
  else if (ext0 A =? 1) && (ext1 A =? 1) then
    let! a := mget A 0 0 in Ret (init + eabs M a)
  else
    let! s := fold_range 0 (ext0 A) (fun i s => fold_range 0 (ext1 A) (fun j s => frob_step A i j s) s)
                (Ssq r0 r1) in
    Ret (init + scaling_factor s * rsqrt (scaled_sum_of_squares s)).
(** blas1_matrix_frob_norm.hpp:191-206 *)
Definition matrix_frob_norm_noinit (A : mat O) : prog O F := matrix_frob_norm A r0.

(** blas1_matrix_inf_norm.hpp:88-115 *)
Definition matrix_inf_norm (A : mat O) (init : F) : prog O F :=
  if (ext0 A =? 0) || (ext1 A =? 0) then Ret init
  else if (ext0 A =? 1) && (ext1 A =? 1) then
    let! a := mget A 0 0 in Ret (init + eabs M a)
  else
    fold_range 0 (ext0 A) (fun i result =>
      let! row_sum := fold_range 0 (ext1 A) (fun j s => let! a := mget A i j in Ret (s + eabs M a)) init in
      Ret (std_max row_sum result)) init.
(** blas1_matrix_inf_norm.hpp:176-189 *)
Definition matrix_inf_norm_noinit (A : mat O) : prog O F := matrix_inf_norm A r0.

(** blas1_matrix_one_norm.hpp:89-118 *)
Definition matrix_one_norm (A : mat O) (init : F) : prog O F :=
  if (ext0 A =? 0) || (ext1 A =? 0) then Ret init
  else if (ext0 A =? 1) && (ext1 A =? 1) then
    let! a := mget A 0 0 in Ret (init + eabs M a)
  else
    fold_range 0 (ext1 A) (fun j result =>
      let! col_sum := fold_range 0 (ext0 A) (fun i s => let! a := mget A i j in Ret (s + eabs M a)) init in
      Ret (std_max col_sum result)) init.
(** blas1_matrix_one_norm.hpp:178-190 *)
Definition matrix_one_norm_noinit (A : mat O) : prog O F := matrix_one_norm A r0.
End Norm.
Arguments Ssq {F}.
Arguments scaling_factor {F}.
Arguments scaled_sum_of_squares {F}.

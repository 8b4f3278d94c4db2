(** C66: elements of a narrow floating-point type with an accumulator of a wide one.
    They hold for every pair of IEEE 754 binary formats, the second at least as wide as the first
    (24, 128 and 53, 1024 for float and double). *)
From Coq Require Import List Arith ZArith Reals Lia Lra Bool.
From Flocq Require Import Core.Core IEEE754.BinarySingleNaN.
From Verif Require Import Mem Scalar View Spec SpecR SpecF Norm Ieee Mixed Blas1 Wp PfMixed Inst PropFloat PropNormF.
Import ListNotations.
Local Open Scope R_scope.

(** float and double, for the concrete cases. *)
Definition F32 : ops := ieee_ops 24 128 prec24 emax128.
Definition fs (m e : Z) : binary_float 24 128 := binary_normalize 24 128 prec24 emax128 mode_NE m e false.
Arguments fs : simpl never.
Definition FD : ops := mixed_ops 24 128 53 1024 prec24 emax128 prec53 emax1024.
Definition nw (m e : Z) : FD := Narrow (fs m e).
Definition wd (m e : Z) : FD := Wide (fl m e : binary_float 53 1024).
Definition fdmag : mags F32 R64 := mixed_mags 24 128 53 1024 prec24 emax128 prec53 emax1024.
Definition sv (l : list (binary_float 24 128)) (i : nat) : binary_float 24 128 := nth i l (B754_zero false).
Definition outw (o : res FD FD) : option SpecFloat.spec_float :=
  match o with Ok (Wide r) _ => Some (B2SF r) | _ => None end.

(** Conversion to the wide type is exact; the sign is kept, also of zeros and infinities. *)
Theorem C66_conversion : forall prec emax prec' emax' (Hp' : Prec_gt_0 prec') (He' : Prec_lt_emax prec' emax'),
  (prec <= prec')%Z -> (emax <= emax')%Z -> forall x : binary_float prec emax,
  let y := widen prec emax prec' emax' Hp' He' x in
  is_finite y = is_finite x /\ (is_finite x = true -> B2R y = B2R x) /\ is_nan y = is_nan x /\
  (is_nan x = false -> Bsign y = Bsign x).
Proof. exact widen_ok. Qed.
Print Assumptions C66_conversion.
(** The least subnormal float and 3 2^100 *)
Example C66_conversion_case :
  B2SF (widen 24 128 53 1024 prec53 emax1024 (fs 1 (-149))) = B2SF (fl 1 (-149)) /\
  B2SF (widen 24 128 53 1024 prec53 emax1024 (fs 3 100)) = B2SF (fl 3 100).
Proof. split; vm_compute; reflexivity. Qed.

(** Sum of magnitudes: every addition takes place in the wide type; no rounding error of the narrow type appears. *)
Theorem C66_abs_sum : forall prec emax prec' emax' (Hp : Prec_gt_0 prec) (He : Prec_lt_emax prec emax)
    (Hp' : Prec_gt_0 prec') (He' : Prec_lt_emax prec' emax'), (prec <= prec')%Z -> (emax <= emax')%Z ->
  forall (m : mem (ieee_ops prec emax Hp He)) x (f : nat -> binary_float prec emax) (init : binary_float prec' emax'), vec_holds m x f ->
  returns (vector_abs_sum (mixed_mags prec emax prec' emax' Hp He Hp' He') x init) m (fun r : binary_float prec' emax' =>
    let M := Rabs (B2R init) + rsum (vext x) (fun i => Rabs (B2R (f i))) in
    (is_finite r = true -> is_finite init = true /\ all_finite (vext x) f /\
       Rabs (B2R r - (B2R init + rsum (vext x) (fun i => Rabs (B2R (f i))))) <= gam prec' (vext x) * M) /\
    (is_finite init = true -> all_finite (vext x) f ->
       (1 + unit_roundoff prec') ^ vext x * M <= max_finite prec' emax' -> is_finite r = true)).
Proof. exact abs_sum_mixed. Qed.
Print Assumptions C66_abs_sum.
(** 2^24 + 1 and 2^127 + 2^127 are not floats. *)
Example C66_abs_sum_case :
  returns (vector_abs_sum fdmag (vec_at 0 2) (fl 0 0)) (mem_of (T := F32) [fs 1 24; fs (-1) 0]) (fun r : binary_float 53 1024 =>
    B2SF r = B2SF (fl 16777217 0) /\
    (is_finite r = true -> Rabs (B2R r - (B2R (fl 0 0 : binary_float 53 1024) + rsum 2 (fun i => Rabs (B2R (sv [fs 1 24; fs (-1) 0] i)))))
       <= gam 53 2 * (Rabs (B2R (fl 0 0 : binary_float 53 1024)) + rsum 2 (fun i => Rabs (B2R (sv [fs 1 24; fs (-1) 0] i)))))) /\
  out64 (run (vector_abs_sum fdmag (vec_at 0 2) (fl 0 0)) (mem_of (T := F32) [fs 1 127; fs (-1) 127])) = Some (B2SF (fl 1 128)).
Proof.
  split; [|vm_compute; reflexivity].
  apply out64_ok; [vm_compute; reflexivity|].
  destruct (C66_abs_sum 24 128 53 1024 prec24 emax128 prec53 emax1024 ltac:(lia) ltac:(lia) (mem_of (T := F32) [fs 1 24; fs (-1) 0])
    (vec_at 0 2) (sv [fs 1 24; fs (-1) 0]) (fl 0 0) ltac:(concrete)) as (r & Hr & A & _).
  exists r. split; [exact Hr|]. intros Fr. apply A; auto.
Qed.

(** 2-norm of narrow elements accumulated in the wide type *)
Theorem C66_two_norm : forall prec emax prec' emax' (Hp : Prec_gt_0 prec) (He : Prec_lt_emax prec emax)
    (Hp' : Prec_gt_0 prec') (He' : Prec_lt_emax prec' emax'), (prec <= prec')%Z -> (emax <= emax')%Z ->
  forall (m : mem (ieee_ops prec emax Hp He)) x (f : nat -> binary_float prec emax), vec_holds m x f -> all_finite (vext x) f ->
  (1 + INR (vext x)) * (1 + unit_roundoff prec') ^ vext x <= max_finite prec' emax' ->
  returns (vector_two_norm_noinit (mixed_mags prec emax prec' emax' Hp He Hp' He') x) m (fun r : binary_float prec' emax' =>
    let T := sqrt (rsum (vext x) (fun i => B2R (f i) * B2R (f i))) in
    let eps := ssq_err prec' emax' (vext x) 1 in
    ((1 + eps) * (1 + unit_roundoff prec') ^ 2 * T + half_tiny prec' emax' <= max_finite prec' emax' -> is_finite r = true) /\
    (is_finite r = true -> Rabs (B2R r - T) <= ((1 + eps) * (1 + unit_roundoff prec') ^ 2 - 1) * T + half_tiny prec' emax')).
Proof. exact two_norm_mixed. Qed.
Print Assumptions C66_two_norm.
(** The norm of (3 2^126, -3 2^126), about 1.06 2^128, exceeds the largest float but is computed in double. *)
Example C66_two_norm_case :
  returns (vector_two_norm_noinit fdmag (vec_at 0 2)) (mem_of (T := F32) [fs 3 126; fs (-3) 126]) (fun r : binary_float 53 1024 =>
    let T := sqrt (rsum 2 (fun i => B2R (sv [fs 3 126; fs (-3) 126] i) * B2R (sv [fs 3 126; fs (-3) 126] i))) in
    let eps := ssq_err 53 1024 2 1 in
    is_finite r = true -> Rabs (B2R r - T) <= ((1 + eps) * (1 + unit_roundoff 53) ^ 2 - 1) * T + half_tiny 53 1024) /\
  match out64 (run (vector_two_norm_noinit fdmag (vec_at 0 2)) (mem_of (T := F32) [fs 3 126; fs (-3) 126])) with
  | Some (SpecFloat.S754_finite false _ _) => true | _ => false end = true.
Proof.
  split; [|vm_compute; reflexivity].
  destruct (C66_two_norm 24 128 53 1024 prec24 emax128 prec53 emax1024 ltac:(lia) ltac:(lia) (mem_of (T := F32) [fs 3 126; fs (-3) 126])
    (vec_at 0 2) (sv [fs 3 126; fs (-3) 126]) ltac:(concrete)) as (r & Hr & _ & K).
  - intros [|[|i]] Hi; simpl in Hi; try lia; vm_compute; reflexivity.
  - exact ssq64.
  - exists r. split; [exact Hr|]. exact K.
Qed.

(** Dot product with a wide init: the additions take place in the wide type, but each product is rounded to the
    narrow one.  Missing: products in the precision of init (see the refutations). *)
Theorem C66_dot_partial : forall prec emax prec' emax' (Hp : Prec_gt_0 prec) (He : Prec_lt_emax prec emax)
    (Hp' : Prec_gt_0 prec') (He' : Prec_lt_emax prec' emax'), (prec <= prec')%Z -> (emax <= emax')%Z ->
  forall (m : mem (mixed_ops prec emax prec' emax' Hp He Hp' He')) x y (f g : nat -> binary_float prec emax) (s : binary_float prec' emax'),
  vext x = vext y -> vec_holds m x (fun i => Narrow (f i)) -> vec_holds m y (fun i => Narrow (g i)) ->
  returns (dot x y (Wide s)) m (fun r => exists w : binary_float prec' emax', r = Wide w /\
    let n := vext x in
    let M := rsum n (fun k => Rabs (B2R (f k)) * Rabs (B2R (g k))) in
    (is_finite w = true ->
       is_finite s = true /\ all_finite n f /\ all_finite n g /\
       Rabs (B2R w - (B2R s + rsum n (fun k => B2R (f k) * B2R (g k))))
       <= gam prec' n * Rabs (B2R s) + ((1 + unit_roundoff prec') ^ n * (1 + unit_roundoff prec) - 1) * M
          + INR n * half_tiny prec emax * (1 + unit_roundoff prec') ^ n)).
Proof. exact dot_mixed. Qed.
Print Assumptions C66_dot_partial.
(** 2^-20 + (3 * 5 + 2^24 * 1): the additions are those of double. *)
Example C66_dot_case :
  let m : mem FD := mem_of [nw 3 0; nw 1 24; nw 5 0; nw 1 0] in
  outw (run (dot (vec_at 0 2) (vec_at 2 2) (wd 1 (-20))) m) = Some (B2SF (fl (16777231 * 1048576 + 1) (-20))) /\
  returns (dot (vec_at 0 2) (vec_at 2 2) (wd 1 (-20))) m (fun r => exists w : binary_float 53 1024, r = Wide w /\
    (is_finite w = true -> is_finite (fl 1 (-20) : binary_float 53 1024) = true)).
Proof.
  intros. split; [vm_compute; reflexivity|].
  destruct (C66_dot_partial 24 128 53 1024 prec24 emax128 prec53 emax1024 ltac:(lia) ltac:(lia) m (vec_at 0 2) (vec_at 2 2)
    (sv [fs 3 0; fs 1 24]) (sv [fs 5 0; fs 1 0]) (fl 1 (-20)) eq_refl ltac:(concrete) ltac:(concrete)) as (r & Hr & w & E & K).
  exists r. split; [exact Hr|]. exists w. split; [exact E|]. intros Fw. apply K; auto.
Qed.

(** 2^100 * 2^100 + 0.0 = 2^200 is a double; with float elements the result is infinite.
    With the same elements converted to double beforehand it is 2^200. *)
Theorem C66_dot_overflow_refuted : exists (m m' : mem FD) x y (f g : nat -> binary_float 24 128),
  vext x = vext y /\ vec_holds m x (fun i => Narrow (f i)) /\ vec_holds m y (fun i => Narrow (g i)) /\
  all_finite (vext x) f /\ all_finite (vext x) g /\
  vec_holds m' x (fun i => Wide (widen 24 128 53 1024 prec53 emax1024 (f i))) /\
  vec_holds m' y (fun i => Wide (widen 24 128 53 1024 prec53 emax1024 (g i))) /\
  outw (run (dot x y (wd 0 0)) m) = Some (SpecFloat.S754_infinity false) /\
  outw (run (dot x y (wd 0 0)) m') = Some (B2SF (fl 1 200)).
Proof.
  exists (mem_of [nw 1 100; nw 1 100]),
    (mem_of [Wide (widen 24 128 53 1024 prec53 emax1024 (fs 1 100)); Wide (widen 24 128 53 1024 prec53 emax1024 (fs 1 100))]),
    (vec_at 0 1), (vec_at 1 1), (sv [fs 1 100]), (sv [fs 1 100]).
  split; [reflexivity|]. split; [concrete|]. split; [concrete|].
  split; [intros [|i] Hi; simpl in Hi; try lia; vm_compute; reflexivity|].
  split; [intros [|i] Hi; simpl in Hi; try lia; vm_compute; reflexivity|].
  split; [concrete|]. split; [concrete|]. split; vm_compute; reflexivity.
Qed.
Print Assumptions C66_dot_overflow_refuted.
(** (1 + 2^-12)^2 = 1 + 2^-11 + 2^-24 is a double; with float elements the last term is lost. *)
Theorem C66_dot_refuted : exists (m m' : mem FD) x y (f g : nat -> binary_float 24 128),
  vext x = vext y /\ vec_holds m x (fun i => Narrow (f i)) /\ vec_holds m y (fun i => Narrow (g i)) /\
  all_finite (vext x) f /\ all_finite (vext x) g /\
  vec_holds m' x (fun i => Wide (widen 24 128 53 1024 prec53 emax1024 (f i))) /\
  vec_holds m' y (fun i => Wide (widen 24 128 53 1024 prec53 emax1024 (g i))) /\
  outw (run (dot x y (wd 0 0)) m) = Some (B2SF (fl (2^24 + 2^13) (-24))) /\
  outw (run (dot x y (wd 0 0)) m') = Some (B2SF (fl (2^24 + 2^13 + 1) (-24))).
Proof.
  exists (mem_of [nw 4097 (-12); nw 4097 (-12)]),
    (mem_of [Wide (widen 24 128 53 1024 prec53 emax1024 (fs 4097 (-12))); Wide (widen 24 128 53 1024 prec53 emax1024 (fs 4097 (-12)))]),
    (vec_at 0 1), (vec_at 1 1), (sv [fs 4097 (-12)]), (sv [fs 4097 (-12)]).
  split; [reflexivity|]. split; [concrete|]. split; [concrete|].
  split; [intros [|i] Hi; simpl in Hi; try lia; vm_compute; reflexivity|].
  split; [intros [|i] Hi; simpl in Hi; try lia; vm_compute; reflexivity|].
  split; [concrete|]. split; [concrete|]. split; vm_compute; reflexivity.
Qed.
Print Assumptions C66_dot_refuted.

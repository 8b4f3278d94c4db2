(** Specification vocabulary for floating-point error bounds. *)
From Coq Require Import ZArith Reals.
From Flocq Require Import Core.Core IEEE754.BinarySingleNaN.
From Verif Require Import Scalar View Spec SpecR Norm Ieee.
Local Open Scope R_scope.

(** Unit roundoff 2^-prec, half the smallest positive number, and the largest finite number. *)
Definition unit_roundoff (prec : Z) : R := bpow radix2 (- prec).
Definition half_tiny (prec emax : Z) : R := / 2 * bpow radix2 (3 - emax - prec).
Definition max_finite (prec emax : Z) : R := bpow radix2 emax - bpow radix2 (emax - prec).

(** (1+u)^n - 1, about n u *)
Definition gam (prec : Z) (n : nat) : R := (1 + unit_roundoff prec) ^ n - 1.
(** Accumulated effect of k underflows followed by at most n roundings. *)
Definition tiny (prec emax : Z) (k n : nat) : R := INR k * half_tiny prec emax * (1 + unit_roundoff prec) ^ n.
(** All numbers f 0, ..., f (n-1) are finite (not infinite, not NaN). *)
Definition all_finite {prec emax} (n : nat) (f : nat -> binary_float prec emax) : Prop :=
  forall i, (i < n)%nat -> is_finite (f i) = true.

(** [r] is an accurate value of s + f_0 g_0 + ... + f_(n-1) g_(n-1), where [E] roundings act on a term at most:
    if r is finite, so are all inputs and the error is at most ((1+u)^E - 1) times the sum of the magnitudes,
    plus the effect of underflow; and r is finite whenever the inputs are and the sum of the magnitudes stays
    below the overflow threshold. *)
Definition accurate {prec emax} (E n : nat) (s : binary_float prec emax) (f g : nat -> binary_float prec emax)
    (r : binary_float prec emax) : Prop :=
  let M := Rabs (B2R s) + rsum n (fun k => Rabs (B2R (f k)) * Rabs (B2R (g k))) in
  (is_finite r = true ->
     is_finite s = true /\ all_finite n f /\ all_finite n g /\
     Rabs (B2R r - (B2R s + rsum n (fun k => B2R (f k) * B2R (g k)))) <= gam prec E * M + tiny prec emax n n) /\
  (is_finite s = true -> all_finite n f -> all_finite n g ->
     (1 + unit_roundoff prec) ^ (n + 1) * M + tiny prec emax n n <= max_finite prec emax -> is_finite r = true).

(** The real matrix that triangle [t] of [a] describes. *)
Definition rtri {prec emax} (t : triangle) (d : diagonal) (a : nat -> nat -> binary_float prec emax) (i j : nat) : R :=
  @tri_of real_ops t d (fun i j => B2R (a i j)) i j.

(** [f] solves T f = b up to a small componentwise residual. *)
Definition small_residual {prec emax} (t : triangle) (d : diagonal) (n : nat)
    (a : nat -> nat -> binary_float prec emax) (b f : nat -> binary_float prec emax) : Prop :=
  forall i, (i < n)%nat ->
  is_finite (b i) = true /\ rtri t d a i i <> 0 /\
  Rabs (rsum n (fun j => rtri t d a i j * B2R (f j)) - B2R (b i))
  <= gam prec n * rsum n (fun j => Rabs (rtri t d a i j) * Rabs (B2R (f j)))
     + tiny prec emax n n + tiny prec emax 1 n * Rabs (rtri t d a i i).
(** [f] solves f T = b up to a small componentwise residual. *)
Definition small_residual_r {prec emax} (t : triangle) (d : diagonal) (n : nat)
    (a : nat -> nat -> binary_float prec emax) (b f : nat -> binary_float prec emax) : Prop :=
  forall j, (j < n)%nat ->
  is_finite (b j) = true /\ rtri t d a j j <> 0 /\
  Rabs (rsum n (fun k => B2R (f k) * rtri t d a k j) - B2R (b j))
  <= gam prec n * rsum n (fun k => Rabs (B2R (f k)) * Rabs (rtri t d a k j))
     + tiny prec emax n n + tiny prec emax 1 n * Rabs (rtri t d a j j).

(** Relative error of a scaled sum of squares over n elements starting from the sum s0:
    five roundings per step, and n underflows relative to a sum of at most (s0 + n) (1+u)^n. *)
Definition ssq_err (prec emax : Z) (n : nat) (s0 : R) : R :=
  gam prec (5 * n) +
  INR n * (16 * ((s0 + INR n) * (1 + unit_roundoff prec) ^ n) * half_tiny prec emax) * (1 + unit_roundoff prec) ^ (5 * n).
(** Magnitudes of the elements as numbers of the format, and what they must satisfy: finite and not negative. *)
Definition good_mags {O : ops} {prec emax Hp He} (M : mags O (ieee_r prec emax Hp He)) (n : nat) (f : nat -> O) : Prop :=
  forall i, (i < n)%nat -> is_finite (eabs M (f i) : binary_float prec emax) = true /\ 0 <= B2R (eabs M (f i) : binary_float prec emax).
(** Exact real value of the magnitude of an element. *)
Definition fmag {O : ops} {prec emax Hp He} (M : mags O (ieee_r prec emax Hp He)) (v : O) : R :=
  B2R (eabs M v : binary_float prec emax).

(** [r] is an accurate value of the sum s + g_0 + ... + g_(n-1), where at most [E] roundings act on a term: if r is
    finite, so are all terms and the error is at most ((1+u)^E - 1) times the sum of the magnitudes; and r is finite
    whenever the terms are and the sum of their magnitudes stays below the overflow threshold. *)
Definition sum_accurate {prec emax} (E n : nat) (s : binary_float prec emax) (g : nat -> binary_float prec emax)
    (r : binary_float prec emax) : Prop :=
  let M := Rabs (B2R s) + rsum n (fun k => Rabs (B2R (g k))) in
  (is_finite r = true -> is_finite s = true /\ all_finite n g /\
     Rabs (B2R r - (B2R s + rsum n (fun k => B2R (g k)))) <= gam prec E * M) /\
  (is_finite s = true -> all_finite n g -> (1 + unit_roundoff prec) ^ E * M <= max_finite prec emax -> is_finite r = true).

(** Specification vocabulary for magnitudes: the exact real numbers. *)
From Coq Require Import List Reals Lra.
From Verif Require Import Mem Scalar View Spec Norm.
Local Open Scope R_scope.

(** Exact real arithmetic as magnitude type.  Division and square root are arbitrary functions that are
    only required to be right where they are defined ([exact_div], [exact_sqrt]), so no theorem can depend
    on a value of x/0 or of the square root of a negative number. *)
Definition exact (dv : R -> R -> R) (sq : R -> R) : rops :=
  Rops 0 1 Rplus Rminus Rmult dv sq Rabs
    (fun x y => if Rlt_dec x y then true else false)
    (fun x y => if Req_EM_T x y then true else false).
Definition exact_div (dv : R -> R -> R) : Prop := forall x y, y <> 0 -> dv x y = x / y.
Definition exact_sqrt (sq : R -> R) : Prop := forall x, 0 <= x -> sq x = sqrt x.

(** Magnitude, real and imaginary part of an element, as real numbers. *)
Definition mag {O dv sq} (M : mags O (exact dv sq)) (v : O) : R := eabs M v.
Definition repart {O dv sq} (M : mags O (exact dv sq)) (v : O) : R := ereal M v.
Definition impart {O dv sq} (M : mags O (exact dv sq)) (v : O) : R := eimag M v.

(** Sum f 0 + ... + f (n-1), and maximum of f 0, ..., f (n-1) and 0. *)
Fixpoint rsum (n : nat) (f : nat -> R) : R :=
  match n with 0%nat => 0 | S k => rsum k f + f k end.
Fixpoint rmax0 (n : nat) (f : nat -> R) : R :=
  match n with 0%nat => 0 | S k => Rmax (rmax0 k f) (f k) end.

(** Real elements, and complex elements as pairs: |.| is the modulus. *)
Definition cmod (z : R * R) : R := sqrt (fst z * fst z + snd z * snd z).
(** A program that only computes a value: it ends normally, memory is the same. *)
Definition returns {T A} (p : prog T A) (m : mem T) (Q : A -> Prop) : Prop :=
  exists x, run p m = Ok x m /\ Q x.
(** Row-major order of index pairs. *)
Definition before (i j i' j' : nat) : Prop := (i < i')%nat \/ (i = i' /\ j < j')%nat.

(** * Concrete element types for the examples: real and complex numbers over the Coq reals *)
Definition real_ops : ops := Ops 0 1 Rplus Rminus Rmult Rdiv (fun x => x) (fun x => x).
Definition real_mags : mags real_ops (exact Rdiv sqrt) := @Mags real_ops (exact Rdiv sqrt) true Rabs (fun x => x) (fun _ => 0).
Definition cplx_ops : ops :=
  Ops (0, 0) (1, 0) (fun x y => (fst x + fst y, snd x + snd y)) (fun x y => (fst x - fst y, snd x - snd y))
    (fun x y => (fst x * fst y - snd x * snd y, fst x * snd y + snd x * fst y)) (fun x _ => x)
    (fun x => (fst x, - snd x)) (fun x => (fst x, 0)).
Definition cplx_mags : mags cplx_ops (exact Rdiv sqrt) := @Mags cplx_ops (exact Rdiv sqrt) false cmod fst snd.

(** Specification vocabulary for error bounds of complex floating-point arithmetic. *)
From Coq Require Import ZArith Reals.
From Flocq Require Import Core.Core IEEE754.BinarySingleNaN.
From Verif Require Import Scalar View Spec SpecR SpecF SpecSub Ieee.
Local Open Scope R_scope.

Section SpecC.
Context {prec emax : Z}.
Notation cx := (binary_float prec emax * binary_float prec emax)%type.
(** Both parts are finite; the exact values of the parts; the conjugate. *)
Definition cfin (x : cx) : Prop := is_finite (fst x) = true /\ is_finite (snd x) = true.
Definition all_cfin (n : nat) (f : nat -> cx) : Prop := forall k, (k < n)%nat -> cfin (f k).
Definition rpart (x : cx) : R := B2R (fst x).
Definition ipart (x : cx) : R := B2R (snd x).
Definition conj_of (x : cx) : cx := (fst x, Bopp (snd x)).
(** Zero; the Hermitian matrix that the triangle [t] of [a] describes: the imaginary parts of the diagonal do not count. *)
Definition czero : cx := (B754_zero false, B754_zero false).
Definition cherm_of (t : triangle) (a : nat -> nat -> cx) (i j : nat) : cx :=
  if Nat.eqb i j then (fst (a i i), B754_zero false) else if in_tri_b t i j then a i j else conj_of (a j i).
(** Parts of the exact product x y, and the sums of the magnitudes of their two terms. *)
Definition prod_re (x y : cx) : R := rpart x * rpart y - ipart x * ipart y.
Definition prod_im (x y : cx) : R := rpart x * ipart y + ipart x * rpart y.
Definition mag_re (x y : cx) : R := Rabs (rpart x) * Rabs (rpart y) + Rabs (ipart x) * Rabs (ipart y).
Definition mag_im (x y : cx) : R := Rabs (rpart x) * Rabs (ipart y) + Rabs (ipart x) * Rabs (rpart y).

(** [r] approximates xr + i xi: at most [E] roundings act on a term, the magnitudes of the terms add up to [Mr] in the
    real and [Mi] in the imaginary part, underflows contribute at most [D] to each part.  [ok] says which inputs are
    finite: if r is finite so are they, and the errors are bounded; if they are, r is finite unless the bounds allow
    overflow. *)
Definition capproximates (E : nat) (ok : Prop) (xr xi Mr Mi D : R) (r : cx) : Prop :=
  let W := (1 + unit_roundoff prec) ^ E in
  (cfin r -> ok /\ Rabs (rpart r - xr) <= gam prec E * Mr + W * D /\ Rabs (ipart r - xi) <= gam prec E * Mi + W * D) /\
  (ok -> W * Mr + W * D <= max_finite prec emax -> W * Mi + W * D <= max_finite prec emax -> cfin r).

(** [r] is an accurate value of s + f_0 g_0 + ... + f_(n-1) g_(n-1). *)
Definition caccurate (E n : nat) (s : cx) (f g : nat -> cx) (r : cx) : Prop :=
  capproximates E (cfin s /\ all_cfin n f /\ all_cfin n g)
    (rpart s + rsum n (fun k => prod_re (f k) (g k))) (ipart s + rsum n (fun k => prod_im (f k) (g k)))
    (Rabs (rpart s) + rsum n (fun k => mag_re (f k) (g k))) (Rabs (ipart s) + rsum n (fun k => mag_im (f k) (g k)))
    (INR n * (2 * half_tiny prec emax)) r.
(** [r] is an accurate value of s + (f_0 g_0 + p_0 q_0) + ... *)
Definition caccurate2 (E n : nat) (s : cx) (f g p q : nat -> cx) (r : cx) : Prop :=
  capproximates E (cfin s /\ all_cfin n f /\ all_cfin n g /\ all_cfin n p /\ all_cfin n q)
    (rpart s + rsum n (fun k => prod_re (f k) (g k) + prod_re (p k) (q k)))
    (ipart s + rsum n (fun k => prod_im (f k) (g k) + prod_im (p k) (q k)))
    (Rabs (rpart s) + rsum n (fun k => mag_re (f k) (g k) + mag_re (p k) (q k)))
    (Rabs (ipart s) + rsum n (fun k => mag_im (f k) (g k) + mag_im (p k) (q k)))
    (INR n * (4 * half_tiny prec emax)) r.
(** [r] is an accurate value of s - f_lo g_lo - ... - f_(lo+n-1) g_(lo+n-1). *)
Definition caccurate_diff (E lo n : nat) (s : cx) (f g : nat -> cx) (r : cx) : Prop :=
  capproximates E (cfin s /\ all_cfin n (fun k => f (lo + k)%nat) /\ all_cfin n (fun k => g (lo + k)%nat))
    (rpart s - rsum n (fun k => prod_re (f (lo + k)%nat) (g (lo + k)%nat)))
    (ipart s - rsum n (fun k => prod_im (f (lo + k)%nat) (g (lo + k)%nat)))
    (Rabs (rpart s) + rsum n (fun k => mag_re (f (lo + k)%nat) (g (lo + k)%nat)))
    (Rabs (ipart s) + rsum n (fun k => mag_im (f (lo + k)%nat) (g (lo + k)%nat)))
    (INR n * (2 * half_tiny prec emax)) r.
(** Unknown [i] of T x = b solves row [i]: it is an accurate value of b_i minus the terms of the preceding unknowns, as
    computed, divided by the diagonal element unless that is an implicit one. *)
Definition csolves_row (divide : cx -> cx -> cx) (t : triangle) (d : diagonal) (n : nat) (a : nat -> nat -> cx)
    (b x : nat -> cx) (i : nat) : Prop :=
  exists r, caccurate_diff (sub_len t n i + 2) (sub_lo t i) (sub_len t n i) (b i) (a i) x r /\
    x i = match d with Explicit => divide r (a i i) | ImplicitUnit => r end.
(** Unknown [j] of x T = b solves column [j]. *)
Definition csolves_col (divide : cx -> cx -> cx) (t : triangle) (d : diagonal) (n : nat) (a : nat -> nat -> cx)
    (b x : nat -> cx) (j : nat) : Prop :=
  let t' := match t with Lower => Upper | Upper => Lower end in
  exists r, caccurate_diff (sub_len t' n j + 2) (sub_lo t' j) (sub_len t' n j) (b j) x (fun k => a k j) r /\
    x j = match d with Explicit => divide r (a j j) | ImplicitUnit => r end.
End SpecC.

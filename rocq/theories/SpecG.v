(** Specification vocabulary for Givens rotations over the exact real numbers. *)
From Coq Require Import Reals.
From Verif Require Import Norm SpecR Givens.
Local Open Scope R_scope.

(** Exact real arithmetic, with square root and division only known where they are defined. *)
Definition exactf (dv : R -> R -> R) (sq : R -> R) (hy : R -> R -> R) : fops :=
  Fops (exact dv sq) (fun x y => if Rle_dec x y then true else false) Ropp (fun _ => false) hy.
Definition exact_hypot (hy : R -> R -> R) : Prop := forall x y, hy x y = sqrt (x * x + y * y).

(** Complex numbers as pairs of reals. *)
Definition cx_mul (x y : R * R) : R * R := (fst x * fst y - snd x * snd y, fst x * snd y + snd x * fst y).
Definition cx_add (x y : R * R) : R * R := (fst x + fst y, snd x + snd y).
Definition cx_conj (x : R * R) : R * R := (fst x, - snd x).
Definition cx_opp (x : R * R) : R * R := (- fst x, - snd x).
Definition cx_real (x : R) : R * R := (x, 0).
(** |z|^2 and max(|re z|, |im z|) *)
Definition cx_sq (x : R * R) : R := fst x * fst x + snd x * snd x.
Definition cx_max (x : R * R) : R := Rmax (Rabs (fst x)) (Rabs (snd x)).

(** A computation with fuel ends: from some fuel on it returns one and the same result, satisfying Q. *)
Definition ends {A} (p : nat -> option A) (Q : A -> Prop) : Prop :=
  exists x, Q x /\ exists n, forall fuel, (n <= fuel)%nat -> p fuel = Some x.

(** c and s make the real rotation that maps (f, g) to (r, 0). *)
Definition real_rotation (f g c s r : R) : Prop :=
  c * f + s * g = r /\ - s * f + c * g = 0 /\ c * c + s * s = 1.

(** The complex rotation with real cosine c and complex sine s maps (f, g) to (r, 0):
    c f + s g = r, and -conj(s) f + c g = 0. *)
Definition maps_to (f g : R * R) (c : R) (s r : R * R) : Prop :=
  cx_add (cx_mul (cx_real c) f) (cx_mul s g) = r.
Definition annihilates (f g : R * R) (c : R) (s : R * R) : Prop :=
  cx_add (cx_opp (cx_mul (cx_conj s) f)) (cx_mul (cx_real c) g) = (0, 0).

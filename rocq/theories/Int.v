(** Built-in integer types as element type: int, long (signed, at least as wide as int) and unsigned, unsigned long.
    Narrower types are promoted to int before arithmetic and are not modelled.
    The algorithms use the built-in operators on ElementType and Scalar (e.g. "init += v1(k) * v2(k)",
    blas1_dot.hpp:104). *)
From Coq Require Import ZArith Bool Eqdep_dec.
From Verif Require Import Scalar Norm.
Local Open Scope Z_scope.

(** * Signed integers of [w] bits; [None]: undefined behaviour (overflow, division by zero) has occurred. *)
Section Signed.
Variable w : Z.
Definition checked (z : Z) : option Z :=
  if (- 2 ^ (w - 1) <=? z) && (z <? 2 ^ (w - 1)) then Some z else None.
Definition lift2 (f : Z -> Z -> option Z) (a b : option Z) : option Z :=
  match a, b with Some x, Some y => f x y | _, _ => None end.
(** Division truncates towards zero. *)
Definition sdiv (x y : Z) : option Z := if y =? 0 then None else checked (Z.quot x y).
Definition sint_ops : ops :=
  @Ops (option Z) (Some 0) (Some 1) (lift2 (fun x y => checked (x + y))) (lift2 (fun x y => checked (x - y)))
    (lift2 (fun x y => checked (x * y))) (lift2 sdiv) (fun x => x) (fun x => x).
(** std::abs; the absolute value of the least number is undefined. *)
Definition sabs (x : option Z) : option Z := match x with Some z => checked (Z.abs z) | None => None end.
(** Operations of an integral Scalar in the norms.  Simplification: the square root is truncated before it is
    multiplied (in C++ the product "scaling_factor * sqrt(...)" is formed in double and then converted,
    blas1_vector_norm2.hpp:99). *)
Definition sint_r : rops :=
  @Rops (option Z) (Some 0) (Some 1) (lift2 (fun x y => checked (x + y))) (lift2 (fun x y => checked (x - y)))
    (lift2 (fun x y => checked (x * y))) (lift2 sdiv)
    (fun x => match x with Some z => if z <? 0 then None else Some (Z.sqrt z) | None => None end) sabs
    (fun x y => match x, y with Some a, Some b => a <? b | _, _ => false end)
    (fun x y => match x, y with Some a, Some b => a =? b | _, _ => false end).
Definition sint_mags : mags sint_ops sint_r := @Mags sint_ops sint_r true sabs (fun x => x) (fun _ => Some 0).
End Signed.

(** * Unsigned integers of [w] bits: arithmetic modulo 2^w.  Simplification: division by zero, undefined in C++, gives
    0 here; no theorem about unsigned elements uses division. *)
Section Unsigned.
Variable w : Z.
Definition uint : Type := { z : Z | (z mod 2 ^ w =? z) = true }.
Definition uval (x : uint) : Z := proj1_sig x.
Definition reduce (z : Z) : uint :=
  exist _ (z mod 2 ^ w) (proj2 (Z.eqb_eq _ _) (Zdiv.Zmod_mod z (2 ^ w))).
Definition uint_ops : ops :=
  @Ops uint (reduce 0) (reduce 1) (fun x y => reduce (uval x + uval y)) (fun x y => reduce (uval x - uval y))
    (fun x y => reduce (uval x * uval y)) (fun x y => reduce (uval x / uval y)) (fun x => x) (fun x => x).
End Unsigned.
Arguments uval {w}.

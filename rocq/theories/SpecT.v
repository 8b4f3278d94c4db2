(** Specification vocabulary for solves of mixed types: substitution in an accumulator of a given type (C80). *)
From Coq Require Import List.
From Verif Require Import Spec SpecSub Proxy.

(** ((init - f lo) - f (lo+1)) - ... - f (lo+n-1), every intermediate result converted to type [acc_t]. *)
Definition typed_diffs (L : cpp) (acc_t : ctype L) (init : cval L) (lo n : nat) (f : nat -> cval L) : cval L :=
  fold_left (fun s k => cast L acc_t (cbin L Minus s (f k))) (seq lo n) (cast L acc_t init).
(** Unknown i of T f = b by substitution, accumulated in type [acc_t] and converted once to the type [x_t] of the solution. *)
Definition typed_subst (L : cpp) (acc_t x_t : ctype L) (t : triangle) (d : diagonal) (n : nat)
    (a : nat -> nat -> cval L) (b f : nat -> cval L) (i : nat) : cval L :=
  let s := typed_diffs L acc_t (b i) (sub_lo t i) (sub_len t n i) (fun j => cbin L Times (a i j) (f j)) in
  cast L x_t match d with Explicit => cbin L Divide s (a i i) | ImplicitUnit => s end.
(** Unknown j of f T = b. *)
Definition typed_subst_r (L : cpp) (acc_t x_t : ctype L) (t : triangle) (d : diagonal) (n : nat)
    (a : nat -> nat -> cval L) (b f : nat -> cval L) (j : nat) : cval L :=
  let t' := match t with Lower => Upper | Upper => Lower end in
  let s := typed_diffs L acc_t (b j) (sub_lo t' j) (sub_len t' n j) (fun k => cbin L Times (f k) (a k j)) in
  cast L x_t match d with Explicit => cbin L Divide s (a j j) | ImplicitUnit => s end.
(** Type of B - A * X. *)
Definition difference_type (L : cpp) (tA tB tX : ctype L) : ctype L := mul_type L tB (mul_type L tA tX).

(** ((init + f 0) + f 1) + ... + f (n-1), every intermediate result converted to type [t] (C81). *)
Definition typed_sums (L : cpp) (t : ctype L) (init : cval L) (n : nat) (f : nat -> cval L) : cval L :=
  fold_left (fun s k => cast L t (cbin L Plus s (f k))) (seq 0 n) init.
(** The same sum without conversions. *)
Definition plain_sum (L : cpp) (init : cval L) (n : nat) (f : nat -> cval L) : cval L :=
  fold_left (fun s k => cbin L Plus s (f k)) (seq 0 n) init.
(** Types of results as in C++: a conversion has the type converted to and does nothing to values of that type. *)
Record type_laws (L : cpp) : Prop := TypeLaws {
  type_cast : forall t v, type_of L (cast L t v) = t;
  cast_same : forall v, cast L (type_of L v) v = v;
  type_bin : forall p u v, type_of L (cbin L p u v) = mul_type L (type_of L u) (type_of L v)
}.

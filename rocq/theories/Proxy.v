(** Proxy references: conjugated_scalar and scaled_scalar (proxy_reference.hpp).
    Paths are relative to /repo/include/experimental/__p1673_bits/. *)
From Coq Require Import ZArith Bool.
From Flocq Require Import Core.Core IEEE754.BinarySingleNaN.
From Verif Require Import Mem Ieee.
Local Open Scope prog_scope.

(** The operators of proxy_reference.hpp:162-165. *)
Inductive binop := Plus | Minus | Times | Divide.

(** What C++ gives to values of different types: T(v), the type of a product and of a conjugate, the built-in or
    user-defined operators, and abs, real_if_needed (real_if_needed.hpp:63-88), imag_if_needed
    (imag_if_needed.hpp:63-88) and conj_if_needed (conj_if_needed.hpp:63-92).
    Simplification: abs is the absolute value; which function the unqualified call in proxy_reference.hpp:171 finds
    depends on the declarations visible to the translation unit. *)
Record cpp := Cpp {
  ctype : Type;
  cval : Type;
  type_of : cval -> ctype;
  is_unsigned : ctype -> bool;
  cast : ctype -> cval -> cval;
  mul_type : ctype -> ctype -> ctype;
  conj_type : ctype -> ctype;
  cbin : binop -> cval -> cval -> cval;
  cneg : cval -> cval;
  cabs : cval -> cval;
  creal : cval -> cval;
  cimag : cval -> cval;
  cconjugate : cval -> cval;
  ceq : cval -> cval -> bool
}.

Section Proxy.
Variable L : cpp.

(** A Reference: an lvalue reference to a cell, conjugated_scalar<Reference, ReferenceValue>
    (proxy_reference.hpp:203-223) or scaled_scalar<ScalingFactor, Reference, ReferenceValue> (227-256);
    [rv] is ReferenceValue.  atomic_ref is not modelled. *)
Inductive reference :=
| Cell (a : nat)
| Conjugated (r : reference) (rv : ctype L)
| Scaled (s : cval L) (r : reference) (rv : ctype L).

(** Value of a reference: the cell, or operator value_type() of the proxy (proxy_reference.hpp:99-101), which applies
    to_value (220-222, 245-247) to ReferenceValue(reference) and converts the result to the value_type of
    proxy_reference, that is to ReferenceValue. *)
Fixpoint read (r : reference) : prog (cval L) (cval L) :=
  match r with
  | Cell a => Get a (fun v => Ret v)
  | Conjugated r rv => let! v := read r in Ret (cast L rv (cconjugate L (cast L rv v)))
  | Scaled s r rv => let! v := read r in Ret (cast L rv (cbin L Times s (cast L rv v)))
  end.

(** The member type value_type of the derived class: proxy_reference.hpp:219 and 244 *)
Definition value_type (r : reference) (cell_type : ctype L) : ctype L :=
  match r with
  | Cell _ => cell_type
  | Conjugated _ rv => conj_type L rv
  | Scaled s _ rv => mul_type L (type_of L s) rv
  end.

(** Case 1 (proxy_reference.hpp:113-120), two proxies; case 2 (128-138), value on the right; case 3 (141-151), value on
    the left.  Only proxies have these operators, so [p] and [q] are proxies; [ct] is not used for them. *)
Definition op_pp (o : binop) (p q : reference) (ct : ctype L) : prog (cval L) (cval L) :=
  let! x := read p in let! y := read q in Ret (cbin L o x (cast L (value_type q ct) y)).
Definition op_pv (o : binop) (p : reference) (w : cval L) : prog (cval L) (cval L) :=
  let! x := read p in Ret (cbin L o x w).
Definition op_vp (o : binop) (w : cval L) (p : reference) : prog (cval L) (cval L) :=
  let! x := read p in Ret (cbin L o w x).
(** operator-, proxy_reference.hpp:107-110 *)
Definition op_neg (p : reference) : prog (cval L) (cval L) := let! x := read p in Ret (cneg L x).
(** abs, real, imag, conj: proxy_reference.hpp:167-185 *)
Definition proxy_type (p : reference) (ct : ctype L) : ctype L :=
  match p with Cell _ => ct | Conjugated _ rv => rv | Scaled _ _ rv => rv end.
Definition op_abs (p : reference) (ct : ctype L) : prog (cval L) (cval L) :=
  let! x := read p in Ret (if is_unsigned L (proxy_type p ct) then x else cabs L x).
Definition op_real (p : reference) : prog (cval L) (cval L) := let! x := read p in Ret (creal L x).
Definition op_imag (p : reference) : prog (cval L) (cval L) := let! x := read p in Ret (cimag L x).
Definition op_conj (p : reference) : prog (cval L) (cval L) := let! x := read p in Ret (cconjugate L x).
(** operator== of scaled_scalar, proxy_reference.hpp:250-255: converts the base class, through ReferenceValue, to the
    value_type of scaled_scalar. *)
Definition op_eq (p : reference) (ct : ctype L) (w : cval L) : prog (cval L) bool :=
  let! x := read p in Ret (ceq L (cast L (value_type p ct) x) w).

(** Accessors with their element types: default_accessor (mdspan, not in /repo), scaled_accessor (scaled.hpp:53-106) and
    conjugated_accessor (conjugated.hpp:53-95), by what they do with one element. *)
Inductive accessor :=
| DefaultAcc (t : ctype L)
| ScaledAcc (s : cval L) (a : accessor)
| ConjugatedAcc (a : accessor).
(** element_type (without const): scaled.hpp:56-58, conjugated.hpp:56-60 *)
Fixpoint element_type (a : accessor) : ctype L :=
  match a with
  | DefaultAcc t => t
  | ScaledAcc s a => mul_type L (type_of L s) (element_type a)
  | ConjugatedAcc a => conj_type L (element_type a)
  end.
(** access: scaled.hpp:86-88, conjugated.hpp:79-83; the result is converted to reference, which is element_type. *)
Fixpoint access (a : accessor) (cell : nat) : prog (cval L) (cval L) :=
  match a with
  | DefaultAcc _ => Get cell (fun v => Ret v)
  | ScaledAcc s n =>
      let! v := access n cell in Ret (cast L (element_type a) (cbin L Times s (cast L (element_type n) v)))
  | ConjugatedAcc n =>
      let! v := access n cell in Ret (cast L (element_type a) (cconjugate L (cast L (element_type n) v)))
  end.
End Proxy.
Arguments Cell {L} a. Arguments Conjugated {L} r rv. Arguments Scaled {L} s r rv.
Arguments DefaultAcc {L} t. Arguments ScaledAcc {L} s a. Arguments ConjugatedAcc {L} a.

(** int (32 bits) and double; [VUndef]: overflow of int, division of an int by zero or conversion of a double that does
    not fit, which are undefined, with the type of the expression. *)
Inductive num_type := TInt | TDouble.
Inductive num := VInt (z : Z) | VDouble (x : binary64) | VUndef (t : num_type).
Local Open Scope Z_scope.
Definition int_of (z : Z) : num := if (- 2 ^ 31 <=? z) && (z <=? 2 ^ 31 - 1) then VInt z else VUndef TInt.
Definition to_double (v : num) : option binary64 :=
  match v with
  | VInt z => Some (binary_normalize 53 1024 prec53 emax1024 mode_NE z 0 false)
  | VDouble x => Some x
  | VUndef _ => None
  end.
Definition num_type_of (v : num) : num_type := match v with VInt _ => TInt | VDouble _ => TDouble | VUndef t => t end.
Definition num_cast (t : num_type) (v : num) : num :=
  match t, v with
  | TInt, VInt z => VInt z
  | TInt, VDouble x => if is_finite x then int_of (Btrunc x) else VUndef TInt
  | TDouble, VInt z => VDouble (binary_normalize 53 1024 prec53 emax1024 mode_NE z 0 false)
  | TDouble, VDouble x => VDouble x
  | t, VUndef _ => VUndef t
  end.
Definition num_mul_type (s t : num_type) : num_type := match s, t with TInt, TInt => TInt | _, _ => TDouble end.
Definition num_bin (o : binop) (u v : num) : num :=
  match u, v with
  | VInt x, VInt y =>
      match o with
      | Plus => int_of (x + y) | Minus => int_of (x - y) | Times => int_of (x * y)
      | Divide => if y =? 0 then VUndef TInt else int_of (Z.quot x y)
      end
  | _, _ =>
      match to_double u, to_double v with
      | Some x, Some y => VDouble (match o with Plus => Bplus mode_NE x y | Minus => Bminus mode_NE x y
                                   | Times => Bmult mode_NE x y | Divide => Bdiv mode_NE x y end)
      | _, _ => VUndef (num_mul_type (num_type_of u) (num_type_of v))
      end
  end.
Definition num_zero (t : num_type) : num := match t with TInt => VInt 0 | TDouble => VDouble (B754_zero false) end.
Definition numbers : cpp :=
  Cpp num_type num num_type_of (fun _ => false) num_cast num_mul_type (fun t => t) num_bin
    (fun v => match v with VInt z => int_of (- z) | VDouble x => VDouble (Bopp x) | VUndef t => VUndef t end)
    (fun v => match v with VInt z => int_of (Z.abs z) | VDouble x => VDouble (Babs x) | VUndef t => VUndef t end)
    (fun v => v) (fun v => num_zero (num_type_of v)) (fun v => v)
    (fun u v => match u, v with
                | VInt x, VInt y => x =? y
                | _, _ => match to_double u, to_double v with Some x, Some y => Beqb x y | _, _ => false end
                end).

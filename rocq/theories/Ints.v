(** Integer types of C++ of every width, with integer promotions and the usual arithmetic conversions, as an instance of
    the types of Proxy.v (C83).  The library only uses the built-in operators on them, e.g. "init += v1(k) * v2(k)"
    (/repo/include/experimental/__p1673_bits/blas1_dot.hpp:104); the rules are those of the language, not in /repo.
    Simplifications: int has 32 bits; of two types the one with more bits has the higher rank (long and long long are not
    distinguished); conversions to a signed type are modulo 2^w (C++20, and earlier in all known compilers); bool and
    char8_t etc. are not distinguished from the integer type of their size. *)
From Coq Require Import ZArith Bool.
From Verif Require Import Scalar Proxy Typed.
Local Open Scope Z_scope.

(** Signedness and width. *)
Record ikind := IK { isigned : bool; iwidth : Z }.
(** A value with its type; [None]: undefined behaviour has occurred. *)
Inductive ival := IV (t : ikind) (v : option Z).

Definition ikind_eqb (s t : ikind) : bool := Bool.eqb (isigned s) (isigned t) && (iwidth s =? iwidth t).
(** Integer promotion, [conv.prom] *)
Definition promote (t : ikind) : ikind := if iwidth t <? 32 then IK true 32 else t.
(** Usual arithmetic conversions, [expr.arith.conv] *)
Definition common (s t : ikind) : ikind :=
  let s := promote s in let t := promote t in
  if Bool.eqb (isigned s) (isigned t) then (if iwidth s <? iwidth t then t else s)
  else let u := if isigned s then t else s in let g := if isigned s then s else t in
       if iwidth g <=? iwidth u then u else g.
(** The value of type t congruent to z modulo 2^w, [conv.integral] *)
Definition wrap_to (t : ikind) (z : Z) : Z :=
  if isigned t then (z + 2 ^ (iwidth t - 1)) mod 2 ^ iwidth t - 2 ^ (iwidth t - 1) else z mod 2 ^ iwidth t.
(** Result of an operation in type t: signed overflow is undefined, [expr.pre] *)
Definition result_in (t : ikind) (z : Z) : option Z :=
  if isigned t then (if (- 2 ^ (iwidth t - 1) <=? z) && (z <? 2 ^ (iwidth t - 1)) then Some z else None)
  else Some (z mod 2 ^ iwidth t).
Definition icast (t : ikind) (x : ival) : ival :=
  match x with IV s v => if ikind_eqb s t then x else IV t (option_map (wrap_to t) v) end.
Definition ibin (p : binop) (x y : ival) : ival :=
  match x, y with IV s a, IV t b =>
    let c := common s t in
    IV c (match a, b with
          | Some u, Some v =>
              let u := wrap_to c u in let v := wrap_to c v in
              match p with
              | Plus => result_in c (u + v) | Minus => result_in c (u - v) | Times => result_in c (u * v)
              | Divide => if v =? 0 then None else result_in c (Z.quot u v)
              end
          | _, _ => None
          end)
  end.
(** Unary minus and abs promote; real_if_needed and conj_if_needed return their argument (real_if_needed.hpp:64-81,
    conj_if_needed.hpp:72-85), imag_if_needed returns 0 (imag_if_needed.hpp:64-81). *)
Definition ints : cpp :=
  Cpp ikind ival (fun x => match x with IV t _ => t end) (fun t => negb (isigned t)) icast common (fun t => t) ibin
    (fun x => match x with IV t v => IV (promote t) (match v with Some u => result_in (promote t) (- u) | None => None end) end)
    (fun x => match x with IV t v => IV (promote t) (match v with Some u => result_in (promote t) (Z.abs u) | None => None end) end)
    (fun x => x) (fun x => match x with IV t _ => IV t (Some 0) end) (fun x => x)
    (fun x y => match x, y with IV _ (Some u), IV _ (Some v) => u =? v | _, _ => false end).

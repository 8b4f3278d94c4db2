(** IEEE-754 numbers whose NaNs carry a sign and a payload, as float and double do.  What an operation puts into the
    NaN it returns is left to the implementation; here it is an arbitrary function of the operands. *)
From Coq Require Import ZArith Bool.
From Flocq Require Import Core.Core IEEE754.BinarySingleNaN IEEE754.Binary.
From Verif Require Import Scalar Norm Givens Ieee IeeeC.

Section Payload.
Variables prec emax : Z.
Context (Hp : Prec_gt_0 prec) (He : Prec_lt_emax prec emax).
Notation fl := (Binary.binary_float prec emax).
Notation some_nan := { x : fl | Binary.is_nan prec emax x = true }.
(** The choice of each operation (not part of /repo: it is made by the hardware and the compiler). *)
Record nan_choice := NanChoice {
  nan_add : fl -> fl -> some_nan; nan_sub : fl -> fl -> some_nan; nan_mul : fl -> fl -> some_nan; nan_div : fl -> fl -> some_nan;
  nan_sqrt : fl -> some_nan; nan_abs : fl -> some_nan; nan_opp : fl -> some_nan
}.
Variable N : nan_choice.
(** The operators of float and double in the algorithms, e.g. "+" and "*" in blas1_dot.hpp:104, "-" and "/" in
    blas2_matrix_vector_solve.hpp:165-170, sqrt in blas1_vector_norm2.hpp:99, unary minus in blas1_givens.hpp:210-212. *)
Definition padd : fl -> fl -> fl := Binary.Bplus prec emax Hp He (nan_add N) mode_NE.
Definition psub : fl -> fl -> fl := Binary.Bminus prec emax Hp He (nan_sub N) mode_NE.
Definition pmul : fl -> fl -> fl := Binary.Bmult prec emax Hp He (nan_mul N) mode_NE.
Definition pdiv : fl -> fl -> fl := Binary.Bdiv prec emax Hp He (nan_div N) mode_NE.
Definition psqrt : fl -> fl := Binary.Bsqrt prec emax Hp He (nan_sqrt N) mode_NE.
Definition pabs : fl -> fl := Binary.Babs prec emax (nan_abs N).
Definition popp : fl -> fl := Binary.Bopp prec emax (nan_opp N).
Definition pzero : fl := Binary.B754_zero prec emax false.
Definition pone : fl := Binary.Bone prec emax Hp He.
(** Comparisons (blas1_givens.hpp:145, 160, 209): false if an operand is a NaN. *)
Definition pcompare (x y : fl) : option comparison := Binary.Bcompare prec emax x y.
Definition pltb (x y : fl) : bool := match pcompare x y with Some Lt => true | _ => false end.
Definition pleb (x y : fl) : bool := match pcompare x y with Some (Lt | Eq) => true | _ => false end.
Definition peqb (x y : fl) : bool := match pcompare x y with Some Eq => true | _ => false end.

(** Elements, with conj_if_needed and real_if_needed the identity (conj_if_needed.hpp:63-92, real_if_needed.hpp:63-88), and
    magnitudes (abs_if_needed.hpp:67-81) *)
Definition pay_ops : ops := @Ops fl pzero pone padd psub pmul pdiv (fun x => x) (fun x => x).
Definition pay_r : rops := @Rops fl pzero pone padd psub pmul pdiv psqrt pabs pltb peqb.
Definition pay_f (hypot : fl -> fl -> fl) : fops := @Fops pay_r pleb popp (Binary.is_nan prec emax) hypot.
Definition pay_mags : mags pay_ops pay_r := @Mags pay_ops pay_r true pabs (fun x => x) (fun _ => pzero).

(** Complex numbers as in IeeeC.v, with the same sources (blas1_dot.hpp:104, conj_if_needed.hpp:71-94,
    real_if_needed.hpp:63-88) and the same simplifications. *)
Definition pcfl : Type := (fl * fl)%type.
Variables recover cdiv : pcfl -> pcfl -> pcfl.
Definition pcmul_plain (x y : pcfl) : pcfl :=
  (psub (pmul (fst x) (fst y)) (pmul (snd x) (snd y)), padd (pmul (fst x) (snd y)) (pmul (snd x) (fst y))).
Definition pcmul (x y : pcfl) : pcfl :=
  let p := pcmul_plain x y in if Binary.is_nan prec emax (fst p) && Binary.is_nan prec emax (snd p) then recover x y else p.
Definition pay_c : ops :=
  @Ops pcfl (pzero, pzero) (pone, pzero) (fun x y => (padd (fst x) (fst y), padd (snd x) (snd y)))
    (fun x y => (psub (fst x) (fst y), psub (snd x) (snd y))) pcmul cdiv (fun x => (fst x, popp (snd x))) (fun x => (fst x, pzero)).
End Payload.
Arguments nan_add {prec emax}. Arguments nan_sub {prec emax}. Arguments nan_mul {prec emax}. Arguments nan_div {prec emax}.
Arguments nan_sqrt {prec emax}. Arguments nan_abs {prec emax}. Arguments nan_opp {prec emax}.

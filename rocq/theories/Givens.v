(** setup_givens_rotation, real and complex (blas1_givens.hpp:112-372).

    The functions write only their output parameters, so they are modelled as pure functions; memory plays
    no part.  The do/while and goto loops carry a fuel: [None] means that the loop is still running after
    that many iterations.  Simplification: [count] and the loop counters are unbounded integers (C++ int). *)
From Coq Require Import List Arith Bool ZArith.
From Verif Require Import Norm.
Set Implicit Arguments.

(** Further operations of the floating-point type Real used by setup_givens_rotation: <=, unary minus,
    std::isnan and ::hypot (blas1_givens.hpp:282, 281, 303, 306).  No law is assumed. *)
Record fops := Fops {
  fbase :> rops;
  rleb : rcar fbase -> rcar fbase -> bool;
  ropp : rcar fbase -> rcar fbase;
  risnan : rcar fbase -> bool;
  rhypot : rcar fbase -> rcar fbase -> rcar fbase
}.
Arguments rleb {f}. Arguments ropp {f}. Arguments risnan {f}. Arguments rhypot {f}.

Section Setup.
Context {F : fops}.
Local Open Scope mag_scope.

(** numeric_limits<Real>::min() (blas1_givens.hpp:122, 260) and the scaling threshold (lines 141-142 and 264).
    The latter is computed by pow/log from the parameters of the type; here both are parameters. *)
Variables safmin safmn2 : rcar F.
(** blas1_givens.hpp:143, 265 *)
Definition safmx2 : rcar F := r1 / safmn2.

(** The loop "for (int i = 1; i <= count; ++i) x = g(x)" (blas1_givens.hpp:175-177, 194-196, 361-363). *)
Definition times {A} (count : nat) (g : A -> A) (x : A) : A := Nat.iter count g x.

(** blas1_givens.hpp:163-170: do { ... } while (scale >= safmx2) *)
Fixpoint scale_down (fuel : nat) (count : nat) (f1 g1 : rcar F) : option (nat * rcar F * rcar F) :=
  match fuel with
  | 0 => None
  | S k =>
      let count := S count in
      let f1 := f1 * safmn2 in
      let g1 := g1 * safmn2 in
      let scale := std_max (rabs f1) (rabs g1) in
      if rleb safmx2 scale then scale_down k count f1 g1 else Some (count, f1, g1)
  end.

(** blas1_givens.hpp:182-189: do { ... } while (scale <= safmn2) *)
Fixpoint scale_up (fuel : nat) (count : nat) (f1 g1 : rcar F) : option (nat * rcar F * rcar F) :=
  match fuel with
  | 0 => None
  | S k =>
      let count := S count in
      let f1 := f1 * safmx2 in
      let g1 := g1 * safmx2 in
      let scale := std_max (rabs f1) (rabs g1) in
      if rleb scale safmn2 then scale_up k count f1 g1 else Some (count, f1, g1)
  end.

(** blas1_givens.hpp:172-174, 191-193, 203-205 *)
Definition plain_rotation (f1 g1 : rcar F) : rcar F * rcar F * rcar F :=
  let r := rsqrt (f1 * f1 + g1 * g1) in
  (f1 / r, g1 / r, r).

(** blas1_givens.hpp:160-206: the three ranges of scale *)
Definition scaled_rotation (fuel : nat) (f g : rcar F) : option (rcar F * rcar F * rcar F) :=
  let scale := std_max (rabs f) (rabs g) in
  if rleb safmx2 scale then
    match scale_down fuel 0 f g with
    | None => None
    | Some (count, f1, g1) =>
        let '(cs, sn, r) := plain_rotation f1 g1 in
        Some (cs, sn, times count (fun r => r * safmx2) r)
    end
  else if rleb scale safmn2 then
    match scale_up fuel 0 f g with
    | None => None
    | Some (count, f1, g1) =>
        let '(cs, sn, r) := plain_rotation f1 g1 in
        Some (cs, sn, times count (fun r => r * safmn2) r)
    end
  else Some (plain_rotation f g).

(** blas1_givens.hpp:112-215 (real); the result is (cs, sn, r). *)
Definition setup_givens_rotation (fuel : nat) (f g : rcar F) : option (rcar F * rcar F * rcar F) :=
  if reqb g r0 then Some (r1, r0, f)
  else if reqb f r0 then Some (r0, r1, g)
  else
    match scaled_rotation fuel f g with
    | None => None
    | Some (cs, sn, r) =>
        if (rltb (rabs g) (rabs f) && rltb cs r0)%bool
        then Some (ropp cs, ropp sn, ropp r)
        else Some (cs, sn, r)
    end.

(** std::complex<Real> as a pair; the operations of std::complex used below.  Simplification: complex
    multiplication is the plain formula (implementations may special-case NaN results). *)
Definition cplx : Type := rcar F * rcar F.
(** complex * Real (blas1_givens.hpp:274, 275, 290, 291, 362, 367) *)
Definition cscale (z : cplx) (a : rcar F) : cplx := (fst z * a, snd z * a).
(** complex * complex (blas1_givens.hpp:339, 340, 358) *)
Definition cmul (x y : cplx) : cplx :=
  (rsub (fst x * fst y) (snd x * snd y), fst x * snd y + snd x * fst y).
(** Real * complex and complex + complex (blas1_givens.hpp:340) *)
Definition cscalel (a : rcar F) (z : cplx) : cplx := (a * fst z, a * snd z).
Definition cadd (x y : cplx) : cplx := (fst x + fst y, snd x + snd y).
(** conj (blas1_givens.hpp:358) *)
Definition cconj (z : cplx) : cplx := (fst z, ropp (snd z)).
(** f == czero (blas1_givens.hpp:282, 301) *)
Definition ciszero (z : cplx) : bool := (reqb (fst z) r0 && reqb (snd z) r0)%bool.

(** blas1_givens.hpp:218-226 *)
Definition abs1 (ff : cplx) : rcar F := std_max (rabs (fst ff)) (rabs (snd ff)).
(** blas1_givens.hpp:228-234 *)
Definition abssq (ff : cplx) : rcar F := fst ff * fst ff + snd ff * snd ff.

(** blas1_givens.hpp:272-279: label10 *)
Fixpoint label10 (fuel : nat) (count : Z) (fs gs : cplx) (scale : rcar F) : option (Z * cplx * cplx) :=
  match fuel with
  | 0%nat => None
  | S k =>
      let count := (count + 1)%Z in
      let fs := cscale fs safmn2 in
      let gs := cscale gs safmn2 in
      let scale := scale * safmn2 in
      if rleb safmx2 scale then label10 k count fs gs scale else Some (count, fs, gs)
  end.

(** blas1_givens.hpp:288-295: label20 *)
Fixpoint label20 (fuel : nat) (count : Z) (fs gs : cplx) (scale : rcar F) : option (Z * cplx * cplx) :=
  match fuel with
  | 0%nat => None
  | S k =>
      let count := (count - 1)%Z in
      let fs := cscale fs safmx2 in
      let gs := cscale gs safmx2 in
      let scale := scale * safmx2 in
      if rleb scale safmn2 then label20 k count fs gs scale else Some (count, fs, gs)
  end.

(** blas1_givens.hpp:299-341: f is zero or very small *)
Definition rare_case (f g fs gs : cplx) (g2 : rcar F) : rcar F * cplx * cplx :=
  if ciszero f then
    let r := (rhypot (fst g) (snd g), r0) in
    let d := rhypot (fst gs) (snd gs) in
    (r0, (fst gs / d, ropp (snd gs) / d), r)
  else
    let f2s := rhypot (fst fs) (snd fs) in
    let g2s := rsqrt g2 in
    let cs := f2s / g2s in
    let ff :=
      if rltb r1 (abs1 f) then
        let d := rhypot (fst f) (snd f) in
        (fst f / d, snd f / d)
      else
        let dr := safmx2 * fst f in
        let di := safmx2 * snd f in
        let d := rhypot dr di in
        (dr / d, di / d) in
    let sn := cmul ff (fst gs / g2s, ropp (snd gs) / g2s) in
    let r := cadd (cscalel cs f) (cmul sn g) in
    (cs, sn, r).

(** blas1_givens.hpp:359-370: undo the scaling of r.  Line 366 is
    "for (int i = 1; i >= -count; --i)", which runs once for each i with -count <= i <= 1. *)
Definition unscale (count : Z) (r : cplx) : cplx :=
  if (count =? 0)%Z then r
  else if (0 <? count)%Z then times (Z.to_nat count) (fun r => cscale r safmx2) r
  else times (Z.to_nat (1 - (- count) + 1)) (fun r => cscale r safmn2) r.

(** blas1_givens.hpp:342-371: the most common case *)
Definition common_case (count : Z) (fs gs : cplx) (f2 g2 : rcar F) : rcar F * cplx * cplx :=
  let f2s := rsqrt (r1 + g2 / f2) in
  let r := (f2s * fst fs, f2s * snd fs) in
  let cs := r1 / f2s in
  let d := f2 + g2 in
  let sn := cmul (fst r / d, snd r / d) (cconj gs) in
  (cs, sn, unscale count r).

(** blas1_givens.hpp:297-371: the part after scaling *)
Definition complex_rotation (count : Z) (f g fs gs : cplx) : rcar F * cplx * cplx :=
  let f2 := abssq fs in
  let g2 := abssq gs in
  if rleb f2 (std_max g2 r1 * safmin) then rare_case f g fs gs g2
  else common_case count fs gs f2 g2.

(** blas1_givens.hpp:237-372 (complex); the result is (cs, sn, r). *)
Definition setup_givens_rotation_complex (fuel : nat) (f g : cplx) : option (rcar F * cplx * cplx) :=
  let scale := std_max (abs1 f) (abs1 g) in
  if rleb safmx2 scale then
    match label10 fuel 0 f g scale with
    | None => None
    | Some (count, fs, gs) => Some (complex_rotation count f g fs gs)
    end
  else if rleb scale safmn2 then
    if (ciszero g || risnan (rhypot (fst g) (snd g)))%bool then Some (r1, (r0, r0), f)
    else
      match label20 fuel 0 f g scale with
      | None => None
      | Some (count, fs, gs) => Some (complex_rotation count f g fs gs)
      end
  else Some (complex_rotation 0 f g f g).

End Setup.

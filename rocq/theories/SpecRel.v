(** Specification vocabulary for runs over two element types that are related to each other (C86). *)
From Coq Require Import List.
From Verif Require Import Mem Scalar View Norm Par.
Set Implicit Arguments.

(** The operations of two element types take related operands to related results. *)
Record respects {O1 O2 : ops} (R : O1 -> O2 -> Prop) : Prop := Respects {
  resp_zero : R zero zero;
  resp_add : forall x1 x2 y1 y2, R x1 x2 -> R y1 y2 -> R (add x1 y1) (add x2 y2);
  resp_sub : forall x1 x2 y1 y2, R x1 x2 -> R y1 y2 -> R (sub x1 y1) (sub x2 y2);
  resp_mul : forall x1 x2 y1 y2, R x1 x2 -> R y1 y2 -> R (mul x1 y1) (mul x2 y2);
  resp_conj : forall x1 x2, R x1 x2 -> R (conj x1) (conj x2);
  resp_re : forall x1 x2, R x1 x2 -> R (re x1) (re x2)
}.
(** A binary operation, e.g. the division used by a solve, does so. *)
Definition respects_op {O1 O2 : ops} (R : O1 -> O2 -> Prop) (f1 : O1 -> O1 -> O1) (f2 : O2 -> O2 -> O2) : Prop :=
  forall x1 x2 y1 y2, R x1 x2 -> R y1 y2 -> R (f1 x1 y1) (f2 x2 y2).
(** The same for two types of magnitudes; comparisons of related numbers have the same outcome. *)
Record respects_mag {F1 F2 : rops} (S : F1 -> F2 -> Prop) : Prop := RespectsMag {
  resp_r0 : S r0 r0;
  resp_r1 : S r1 r1;
  resp_radd : forall x1 x2 y1 y2, S x1 x2 -> S y1 y2 -> S (radd x1 y1) (radd x2 y2);
  resp_rmul : forall x1 x2 y1 y2, S x1 x2 -> S y1 y2 -> S (rmul x1 y1) (rmul x2 y2);
  resp_rdiv : forall x1 x2 y1 y2, S x1 x2 -> S y1 y2 -> S (rdiv x1 y1) (rdiv x2 y2);
  resp_rsqrt : forall x1 x2, S x1 x2 -> S (rsqrt x1) (rsqrt x2);
  resp_rabs : forall x1 x2, S x1 x2 -> S (rabs x1) (rabs x2);
  resp_rltb : forall x1 x2 y1 y2, S x1 x2 -> S y1 y2 -> rltb x1 y1 = rltb x2 y2;
  resp_reqb : forall x1 x2 y1 y2, S x1 x2 -> S y1 y2 -> reqb x1 y1 = reqb x2 y2
}.
Definition mags_related {O1 O2 : ops} {F1 F2 : rops} (R : O1 -> O2 -> Prop) (S : F1 -> F2 -> Prop)
    (M1 : mags O1 F1) (M2 : mags O2 F2) : Prop :=
  arithmetic M1 = arithmetic M2 /\
  (forall x1 x2, R x1 x2 -> S (eabs M1 x1) (eabs M2 x2)) /\
  (forall x1 x2, R x1 x2 -> S (ereal M1 x1) (ereal M2 x2)) /\
  (forall x1 x2, R x1 x2 -> S (eimag M1 x1) (eimag M2 x2)).
Definition ssq_related {F1 F2 : rops} (S : F1 -> F2 -> Prop) (s1 : @sum_of_squares_result F1) (s2 : @sum_of_squares_result F2) : Prop :=
  S (scaling_factor s1) (scaling_factor s2) /\ S (scaled_sum_of_squares s1) (scaled_sum_of_squares s2).

(** The same cells are allocated, with related contents. *)
Definition mem_related {O1 O2 : ops} (R : O1 -> O2 -> Prop) (m1 : mem O1) (m2 : mem O2) : Prop :=
  forall a, match m1 a, m2 a with Some x1, Some x2 => R x1 x2 | None, None => True | _, _ => False end.
(** Two views of the same cells with the same chain of accessors; factors of scaled views are related. *)
Fixpoint acc_related {O1 O2 : ops} (R : O1 -> O2 -> Prop) (c1 : acc O1) (c2 : acc O2) : Prop :=
  match c1, c2 with
  | ADefault, ADefault => True
  | AScaled a1 c1, AScaled a2 c2 => R a1 a2 /\ acc_related R c1 c2
  | AConj c1, AConj c2 => acc_related R c1 c2
  | _, _ => False
  end.
Definition vec_related {O1 O2 : ops} (R : O1 -> O2 -> Prop) (x1 : vec O1) (x2 : vec O2) : Prop :=
  vbase x1 = vbase x2 /\ vext x1 = vext x2 /\ (forall i, voff x1 i = voff x2 i) /\ acc_related R (vacc x1) (vacc x2).
Definition mat_related {O1 O2 : ops} (R : O1 -> O2 -> Prop) (A1 : mat O1) (A2 : mat O2) : Prop :=
  mbase A1 = mbase A2 /\ ext0 A1 = ext0 A2 /\ ext1 A1 = ext1 A2 /\ mlay A1 = mlay A2 /\ acc_related R (macc A1) (macc A2).

(** Runs from related memories have the same outcome: both return, results related by [Q] and memories related
    by [R]; or both fail, in the same way and with related memories. *)
Definition related_runs {O1 O2 : ops} {A1 A2} (R : O1 -> O2 -> Prop) (Q : A1 -> A2 -> Prop) (p1 : prog O1 A1) (p2 : prog O2 A2) : Prop :=
  forall m1 m2, mem_related R m1 m2 ->
  match run p1 m1, run p2 m2 with
  | Ok x1 m1', Ok x2 m2' => Q x1 x2 /\ mem_related R m1' m2'
  | Err e1 m1', Err e2 m2' => e1 = e2 /\ mem_related R m1' m2'
  | _, _ => False
  end.
(** Parallel algorithms: they throw, or do not compile, for the same arguments; and every complete execution of
    one has a counterpart of the other that ends in a related memory. *)
Definition related_par {O1 O2 : ops} (R : O1 -> O2 -> Prop) (p1 : par O1) (p2 : par O2) : Prop :=
  (p1 = PThrow <-> p2 = PThrow) /\ (p1 = PIllFormed <-> p2 = PIllFormed) /\
  forall m1 m2, mem_related R m1 m2 ->
  (forall m1', par_result p1 m1 m1' -> exists m2', par_result p2 m2 m2' /\ mem_related R m1' m2') /\
  (forall m2', par_result p2 m2 m2' -> exists m1', par_result p1 m1 m1' /\ mem_related R m1' m2').

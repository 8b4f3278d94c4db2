(** Specification vocabulary for related runs, continued (C86): parallel reductions and the set-up of rotations. *)
From Coq Require Import List.
From Verif Require Import Mem Scalar View Norm Givens Red SpecRel.
Set Implicit Arguments.

(** Parallel algorithms that return a value: they throw, or do not compile, for the same arguments; and every
    result that one can return has a related result that the other can return. *)
Definition related_red {O1 O2 : ops} {A1 A2 X1 X2} (R : O1 -> O2 -> Prop) (Q : X1 -> X2 -> Prop) (p1 : red O1 A1 X1) (p2 : red O2 A2 X2) : Prop :=
  (p1 = RThrow <-> p2 = RThrow) /\ (p1 = RIllFormed <-> p2 = RIllFormed) /\
  forall m1 m2, mem_related R m1 m2 ->
  (forall x1, red_result m1 x1 p1 -> exists x2, red_result m2 x2 p2 /\ Q x1 x2) /\
  (forall x2, red_result m2 x2 p2 -> exists x1, red_result m1 x1 p1 /\ Q x1 x2).

(** The further operations of setup_givens_rotation respect a relation. *)
Record respects_float {F1 F2 : fops} (S : F1 -> F2 -> Prop) : Prop := RespectsFloat {
  resp_base : @respects_mag F1 F2 S;
  resp_rsub : forall x1 x2 y1 y2, S x1 x2 -> S y1 y2 -> S (rsub x1 y1) (rsub x2 y2);
  resp_rleb : forall x1 x2 y1 y2, S x1 x2 -> S y1 y2 -> rleb x1 y1 = rleb x2 y2;
  resp_ropp : forall x1 x2, S x1 x2 -> S (ropp x1) (ropp x2);
  resp_risnan : forall x1 x2, S x1 x2 -> risnan x1 = risnan x2;
  resp_rhypot : forall x1 x2 y1 y2, S x1 x2 -> S y1 y2 -> S (rhypot x1 y1) (rhypot x2 y2)
}.
(** Both loops are still running, or the results are related. *)
Definition option_related {A1 A2} (Q : A1 -> A2 -> Prop) (r1 : option A1) (r2 : option A2) : Prop :=
  match r1, r2 with Some x1, Some x2 => Q x1 x2 | None, None => True | _, _ => False end.
Definition pair_related {A1 A2 B1 B2} (P : A1 -> A2 -> Prop) (Q : B1 -> B2 -> Prop) (x1 : A1 * B1) (x2 : A2 * B2) : Prop :=
  P (fst x1) (fst x2) /\ Q (snd x1) (snd x2).

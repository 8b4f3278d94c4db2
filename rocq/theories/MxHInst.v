(** Proofs for C100: instances. *)
From mathcomp Require Import all_ssreflect all_algebra.
From mathcomp Require Import complex.
From Verif Require Import Mem Scalar View Spec SpecMx SpecMxH Idx Blas1 Blas2 Blas3 PfMxHOps.
Set Implicit Arguments.
Local Open Scope ring_scope.
Import GRing.Theory Num.Theory ComplexField.

(** Every algebraically closed field with the conjugation of the Mathematical Components library, in particular the
    algebraic numbers. *)
Section Closed.
Variable C : numClosedFieldType.
Lemma re_self (x : C) : ('Re x)^* = 'Re x. Proof. exact/CrealP/Creal_Re. Qed.
Lemma re_fix (x : C) : x^* = x -> 'Re x = x. Proof. by move=> H; apply/Creal_ReP/CrealP. Qed.
(** Conjugation and real part of a closed field with norm (not in code). *)
Definition closed_conj : conjugation [comUnitRingType of C] :=
  @Conjugation [comUnitRingType of C] [rmorphism of @conjC C] (@conjCK C) (fun x => 'Re x) re_self re_fix.
End Closed.

(** The Gaussian rationals, for the concrete cases. *)
Definition gq : comUnitRingType := ComplexField.complex_comUnitRingType rat_realFieldType.
(** Conjugation (not in code; as std::conj, conj_if_needed.hpp:71-94). *)
Definition gconj (x : gq) : gq := let: (a +i* b)%C := x in (a -i* b)%C.
Lemma gconj_rmorphism : rmorphism gconj.
Proof.
split=> [[a b] [c d]|].
  by rewrite /=; congr (_ +i* _)%C; rewrite opprB opprK addrC.
split=> [[a b] [c d]|]; last by rewrite /= oppr0.
change ((a * c - b * d) +i* - (a * d + b * c) = (a * c - - b * - d) +i* (a * - d + - b * c))%C.
by rewrite mulrNN mulrN mulNr opprD.
Qed.
(** Real part (not in code; as real_if_needed.hpp:63-88). *)
Definition greal (x : gq) : gq := let: (a +i* b)%C := x in (a +i* 0)%C.
Lemma gconj_twice x : gconj (gconj x) = x. Proof. by case: x => a b; rewrite /= opprK. Qed.
Lemma greal_self x : gconj (greal x) = greal x. Proof. by case: x => a b; rewrite /= oppr0. Qed.
Lemma greal_fix x : gconj x = x -> greal x = x.
Proof. case: x => a b /= [] /eqP. rewrite eq_sym -addr_eq0 -mulr2n mulrn_eq0 /= => /eqP ->. by []. Qed.
(** Both together (not in code). *)
Definition gauss_conj : conjugation gq := @Conjugation gq (RMorphism gconj_rmorphism) gconj_twice greal greal_self greal_fix.
(** The Gaussian integer a + b i (not in code). *)
Definition z (a b : int) : gq := (a%:~R +i* b%:~R)%C.
Lemma dotc_square (C : numClosedFieldType) fix_nc (m : mem (conj_ring_ops (closed_conj C))) x n (v : 'cV[C]_n) :
  has_cv (closed_conj C) m x v ->
  succeeds (dotc fix_nc false x x (0 : C)) m (fun r m' =>
    r = \sum_i `|v i 0| ^+ 2 /\ 0 <= (r : C) /\ (r = 0 :> C <-> v = 0) /\ m' = m).
Proof.
move=> Hx. have [r [m' [Hr [Er Em]]]] := dotc_mx fix_nc (0 : C) Hx Hx.
have E : r = \sum_i `|v i 0| ^+ 2 :> C.
  rewrite Er add0r mxE. apply: eq_bigr => i _. by rewrite !mxE /= mulrC -normCK.
have P : forall i, true -> 0 <= `|v i 0| ^+ 2 by move=> i _; rewrite exprn_ge0.
exists r, m'; split=> //. split=> //. split; first by rewrite E; apply: sumr_ge0. split=> //. rewrite E. split.
  move=> /eqP. rewrite psumr_eq0 // => /allP H. apply/colP => i. have := H i (mem_index_enum i).
  by rewrite /= sqrf_eq0 normr_eq0 mxE => /eqP.
move=> ->. by rewrite big1 // => i _; rewrite mxE normr0 expr0n.
Qed.

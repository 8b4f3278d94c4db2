(** The ring tactic for any [ops] satisfying the commutative ring laws, and consequences of the
    conjugation laws. *)
From Coq Require Import List Arith Lia Bool Ring Ring_theory.
From Verif Require Import Mem Scalar View Spec Wp Loops Sums.
Set Implicit Arguments.
Local Open Scope sc_scope.

Section NonComm.
Context {O : ops} (L : ring_laws O).
Let LA := ring_add L.
Definition opp (x : O) : O := zero - x.

Lemma cancel_l : forall x y z : O, x + y = x + z -> y = z.
Proof.
  intros x y z H. rewrite <- (add_0_l LA y), <- (add_0_l LA z).
  assert ((zero - x) + x = zero) as E by apply (sub_add L).
  rewrite <- E, <- !(add_assoc LA), H; auto.
Qed.
Lemma opp_r : forall x : O, x + opp x = zero.
Proof. intros. rewrite (add_comm LA). apply (sub_add L). Qed.
Lemma sub_opp : forall x y : O, x - y = x + opp y.
Proof.
  intros. apply cancel_l with (x := y). rewrite (add_comm LA), (sub_add L).
  rewrite (add_comm LA x), (add_assoc LA), opp_r, (add_0_l LA); auto.
Qed.
Context (C : mul_commutes O).
Lemma comm_ring : ring_theory (zero : O) one add mul sub opp eq.
Proof.
  constructor; intros.
  - apply (add_0_l LA).
  - apply (add_comm LA).
  - apply (add_assoc LA).
  - apply (mul_1_l L).
  - apply C.
  - apply (mul_assoc L).
  - apply (mul_add_r L).
  - apply sub_opp.
  - apply opp_r.
Qed.
End NonComm.

Section Conj.
Context {O : ops} (L : ring_laws O) (K : conj_laws O).
Let LA := ring_add L.
Lemma conj_0 : conj (zero : O) = zero.
Proof.
  apply (cancel_l L) with (x := conj zero). rewrite <- (conj_add K), (add_0_l LA).
  symmetry. apply (add_0_r LA).
Qed.
Lemma conj_opp : forall x : O, conj (opp x) = opp (conj x).
Proof.
  intros. apply (cancel_l L) with (x := conj x). rewrite <- (conj_add K), !(opp_r L). apply conj_0.
Qed.
Lemma conj_sub : forall x y : O, conj (x - y) = conj x - conj y.
Proof. intros. rewrite !(sub_opp L), (conj_add K), conj_opp; auto. Qed.
Lemma conj_sum : forall lo n (f : nat -> O), conj (sum_from zero lo n f) = sum_from zero lo n (fun k => conj (f k)).
Proof.
  intros lo n f; induction n as [|n IH].
  - apply conj_0.
  - rewrite !sum_from_S, (conj_add K), IH; auto.
Qed.
End Conj.

(** Contracted arithmetic contains every particular contraction. *)
From Coq Require Import List Arith ZArith Reals Lia Bool.
From Flocq Require Import Core.Core IEEE754.BinarySingleNaN.
From Verif Require Import Mem Scalar View Spec SpecR SpecF SpecF2 SpecRel Idx Wp Norm Ieee Blas1 Fma SpecFma PfRel PfBlas1 PfFma2.

Lemma plain_respects : forall prec emax (Hp : Prec_gt_0 prec) (He : Prec_lt_emax prec emax),
  respects (O1 := ieee_ops prec emax Hp He) (O2 := fma_ops prec emax Hp He) may_be /\
  respects_op (O1 := ieee_ops prec emax Hp He) (O2 := fma_ops prec emax Hp He) may_be (@div (ieee_ops prec emax Hp He)) (@div (fma_ops prec emax Hp He)).
Proof.
  intros. split; [constructor|]; unfold may_be, respects_op; simpl; eauto 10.
Qed.
Lemma pick_respects : forall prec emax (Hp : Prec_gt_0 prec) (He : Prec_lt_emax prec emax) pick,
  respects (O1 := pick_ops prec emax Hp He pick) (O2 := fma_ops prec emax Hp He) may_be_pending /\
  respects_op (O1 := pick_ops prec emax Hp He pick) (O2 := fma_ops prec emax Hp He) may_be_pending
    (@div (pick_ops prec emax Hp He pick)) (@div (fma_ops prec emax Hp He)).
Proof.
  intros. split; [constructor|]; unfold may_be_pending, respects_op.
  - split; [reflexivity|discriminate].
  - intros [x1 p1] a [y1 q1] b [H1 H2] [K1 K2]. simpl in *. split; [|discriminate].
    destruct p1 as [[u1 u2]|], q1 as [[w1 w2]|]; try destruct (pick _ _) as [[] []]; eauto 12.
  - intros [x1 p1] a [y1 q1] b [H1 H2] [K1 K2]. simpl in *. split; [|discriminate].
    destruct p1 as [[u1 u2]|], q1 as [[w1 w2]|]; try destruct (pick _ _) as [[] []]; eauto 12.
  - intros [x1 p1] a [y1 q1] b [H1 H2] [K1 K2]. simpl in *. split; [eauto|]. intros y z E. inversion E; subst; auto.
  - auto.
  - auto.
  - intros [x1 p1] a [y1 q1] b [H1 H2] [K1 K2]. simpl in *. split; [eauto|discriminate].
Qed.

Section Dot.
Context (prec emax : Z) (Hp : Prec_gt_0 prec) (He : Prec_lt_emax prec emax) (pick : pending prec emax -> pending prec emax -> bool * bool).
Notation P := (pick_ops prec emax Hp He pick).
Notation F := (fma_ops prec emax Hp He).
Lemma dot_pick : forall (m : mem P) x y (f g : nat -> binary_float prec emax) init,
  vext x = vext y -> vec_holds m x (fun i => (f i, None)) -> vec_holds m y (fun i => (g i, None)) ->
  succeeds (dot x y ((init, None) : P)) m (fun r m' => dot_accurate (vext x + 1) (vext x) init f g (fst r) /\ m' = m).
Proof.
  intros m x y f g init He' Hx Hy. eapply wp_conseq; [apply (@dot_ok P); eauto|]. intros r m' [-> ->]. split; auto.
  apply (dot_acc prec emax Hp He).
  assert (K : forall n, may_be_pending (@sum_from P (init, None) 0 n (fun k => @mul P (f k, None) (g k, None)))
    (@sum_from F (exactly init) 0 n (fun k => @mul F (exactly (f k)) (exactly (g k))))).
  { induction n as [|n IH]; [split; [reflexivity|discriminate]|]. rewrite !sum_from_S. apply (pick_respects prec emax Hp He pick); auto.
    apply (pick_respects prec emax Hp He pick); split; try reflexivity; discriminate. }
  apply K.
Qed.
End Dot.

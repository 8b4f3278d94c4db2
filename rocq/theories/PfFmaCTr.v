(** Contracted complex arithmetic contains every contraction: dotc as an instance. *)
From Coq Require Import List Arith ZArith Reals Lia Bool.
From Flocq Require Import Core.Core IEEE754.BinarySingleNaN.
From Verif Require Import Mem Scalar View Spec SpecR SpecF SpecC SpecRel Idx Wp Norm Ieee Blas1 Fma SpecFma Trace SpecTrace FmaC SpecFmaC PfBlas1 PfFmaC.

Section Dotc.
Context (prec emax : Z) (Hp : Prec_gt_0 prec) (He : Prec_lt_emax prec emax) (fuse : opcode -> hist -> hist -> bool * bool).
Notation fl := (binary_float prec emax).
Variable inf : cx (traced_ops prec emax Hp He fuse) -> cx (traced_ops prec emax Hp He fuse) -> fl * fl.
Hypothesis Hinf : forall x y, is_finite (fst (inf x y)) = false /\ is_finite (snd (inf x y)) = false.
Notation T := (traced_cx_ops prec emax Hp He fuse inf).
Notation C := (fma_cx_ops prec emax Hp He).
Notation R := (@may_be_ctraced prec emax Hp He fuse).
Lemma input_exactly : forall x v, cinput x v -> R x (cexactly v).
Proof.
  intros x v (<- & H1 & H2 & H3). split; [|split; [|exact H3]]; (split; [reflexivity|]); intros y z E; congruence.
Qed.
Lemma t_conj_twice : forall v : T, conj (conj v) = v.
Proof.
  intros [a [v p h] w]. cbn. unfold cx_conj, t_opp. cbn. f_equal. f_equal.
  - apply Bopp_involutive.
  - destruct p as [[x y]|]; auto. rewrite Bopp_involutive. auto.
Qed.
Lemma dotc_traced : forall (m : mem T) fix_nc x y (f g : nat -> fl * fl) (f' g' : nat -> T) init init',
  vext x = vext y -> vec_holds m x f' -> vec_holds m y g' ->
  (forall i, i < vext x -> cinput (f' i) (f i) /\ cinput (g' i) (g i)) -> cinput init' init ->
  succeeds (dotc fix_nc false x y (init' : T)) m (fun r m' =>
    caccurate (vext x + 2) (vext x) init (fun k => conj_of (f k)) g (cvalue r) /\ m' = m).
Proof.
  intros m fix_nc x y f g f' g' init init' He' Hx Hy Hin Hinit.
  eapply wp_conseq; [apply (@dotc_ok T) with (nc := false); eauto; [apply t_conj_twice|discriminate]|].
  intros r m' [-> ->]. split; auto. pose proof (ctraced_respects prec emax Hp He fuse inf Hinf) as HR.
  assert (K : forall n, n <= vext x -> R (@sum_from T init' 0 n (fun k => @mul T (conj (f' k)) (g' k)))
    (@sum_from C (cexactly init) 0 n (fun k => @mul C (@conj C (cexactly (f k))) (cexactly (g k))))).
  { induction n as [|n IH]; intros Hn; [apply input_exactly; auto|]. rewrite !sum_from_S. destruct (Hin n ltac:(lia)) as [I1 I2]. simpl Nat.add.
    apply (resp_add HR); [apply IH; lia|]. apply (resp_mul HR); [apply (resp_conj HR)|]; apply input_exactly; auto. }
  destruct (K (vext x) (le_n _)) as ([K1 _] & [K2 _] & _).
  refine (acc_sum prec emax Hp He (vext x) init (cexactly init) (fun k => conj_of (f k)) g (fun k => @conj C (cexactly (f k))) (fun k => cexactly (g k)) _ _ _ (cvalue _) K1 K2).
  - apply cexact_ex.
  - intros. apply (cexact_conj prec emax Hp He), cexact_ex.
  - intros. apply cexact_ex.
Qed.
End Dotc.

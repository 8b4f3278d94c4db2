(** What dot computes when every product is fused with the sum it is added to, and when none is. *)
From Coq Require Import List Arith ZArith Reals Lia Bool.
From Flocq Require Import Core.Core IEEE754.BinarySingleNaN.
From Verif Require Import Mem Scalar View Spec Ieee Blas1 Wp PfBlas1 Fma Trace SpecTrace.

Lemma dot_traced : forall prec emax (Hp : Prec_gt_0 prec) (He : Prec_lt_emax prec emax) fuse (step : binary_float prec emax -> binary_float prec emax -> binary_float prec emax -> binary_float prec emax)
    (m : mem (traced_ops prec emax Hp He fuse)) x y (f g : nat -> traced prec emax) init,
  (forall s a b : traced_ops prec emax Hp He fuse, value (add s (mul a b) : traced prec emax) = step (value s) (value a) (value b)) ->
  vext x = vext y -> vec_holds m x f -> vec_holds m y g ->
  succeeds (dot x y (init : traced_ops prec emax Hp He fuse)) m (fun r m' =>
    value r = fold_left (fun s k => step s (value (f k)) (value (g k))) (seq 0 (vext x)) (value init) /\ m' = m).
Proof.
  intros prec emax Hp He fuse step m x y f g init S; intros. eapply wp_conseq; [apply dot_ok with (f := f) (g := g); eauto|]. intros r m' [-> ->]. split; auto.
  unfold sum_from. generalize (seq 0 (vext x)) as l. intros l. revert init. induction l as [|k l IH]; intros init; auto. cbn [fold_left].
  rewrite IH. f_equal. apply S.
Qed.
Lemma dot_all_fused : forall prec emax (Hp : Prec_gt_0 prec) (He : Prec_lt_emax prec emax) fuse (m : mem (traced_ops prec emax Hp He fuse)) x y (f g : nat -> traced prec emax) init,
  (forall h k, fuse OAdd h k = (false, true)) ->
  vext x = vext y -> vec_holds m x f -> vec_holds m y g ->
  succeeds (dot x y (init : traced_ops prec emax Hp He fuse)) m (fun r m' =>
    value r = fold_left (fun s k => Bfma mode_NE (value (f k)) (value (g k)) s) (seq 0 (vext x)) (value init) /\ m' = m).
Proof.
  intros prec emax Hp He fuse m x y f g init E; intros. apply (dot_traced prec emax Hp He fuse (fun s a b => Bfma mode_NE a b s)); auto.
  intros s a b. simpl. rewrite E. destruct (product s) as [[u v]|]; reflexivity.
Qed.
Lemma dot_none_fused : forall prec emax (Hp : Prec_gt_0 prec) (He : Prec_lt_emax prec emax) fuse (m : mem (traced_ops prec emax Hp He fuse)) x y (f g : nat -> traced prec emax) init,
  (forall h k, fuse OAdd h k = (false, false)) ->
  vext x = vext y -> vec_holds m x f -> vec_holds m y g ->
  succeeds (dot x y (init : traced_ops prec emax Hp He fuse)) m (fun r m' =>
    value r = fold_left (fun s k => Bplus mode_NE s (Bmult mode_NE (value (f k)) (value (g k)))) (seq 0 (vext x)) (value init) /\ m' = m).
Proof.
  intros prec emax Hp He fuse m x y f g init E; intros. apply (dot_traced prec emax Hp He fuse (fun s a b => Bplus mode_NE s (Bmult mode_NE a b))); auto.
  intros s a b. simpl. rewrite E. destruct (product s) as [[u v]|]; reflexivity.
Qed.

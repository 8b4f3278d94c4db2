(** NaN in real IEEE arithmetic is absorbing. *)
From Coq Require Import ZArith Bool.
From Flocq Require Import Core.Core IEEE754.BinarySingleNaN.
From Verif Require Import Scalar Ieee SpecNan.
Set Implicit Arguments.

Lemma nan_absorbing : forall prec emax (Hp : FLX.Prec_gt_0 prec) (He : Prec_lt_emax prec emax),
  absorbing (ieee_ops prec emax Hp He) (fun x : binary_float prec emax => is_nan x = true).
Proof.
  intros prec emax Hp He. constructor; simpl; auto;
    intros x y [K|K]; destruct x; try discriminate; destruct y; try discriminate; reflexivity.
Qed.

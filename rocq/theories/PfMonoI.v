(** The relations of C102 between floating-point numbers are preserved by rounded sums and products. *)
From Coq Require Import ZArith Reals Bool Lra.
From Flocq Require Import Core.Core IEEE754.BinarySingleNaN.
From Verif Require Import Scalar Ieee SpecMono.
Set Implicit Arguments.
Local Open Scope R_scope.

Section MonoI.
Variables prec emax : Z.
Context (Hp : FLX.Prec_gt_0 prec) (He : Prec_lt_emax prec emax).
Notation fl := (binary_float prec emax).
Notation rnd := (Generic_fmt.round radix2 (SpecFloat.fexp prec emax) (round_mode mode_NE)).

Lemma plus_fin : forall x y : fl, is_finite (Bplus mode_NE x y) = true -> is_finite x = true /\ is_finite y = true.
Proof. intros x y H. destruct x as [s|[]| |s m e K], y as [s'|[]| |s' m' e' K']; simpl in *; auto; discriminate. Qed.
Lemma mult_fin : forall x y : fl, is_finite (Bmult mode_NE x y) = true -> is_finite x = true /\ is_finite y = true.
Proof. intros x y H. destruct x as [s|[]| |s m e K], y as [s'|[]| |s' m' e' K']; simpl in *; auto; discriminate. Qed.

Lemma rnd_mono : forall u v, u <= v -> rnd u <= rnd v.
Proof. intros. apply round_le; auto. apply fexp_correct; auto. apply valid_rnd_round_mode. Qed.
Lemma rnd_abs : forall u v, Rabs u <= v -> Rabs (rnd u) <= rnd v.
Proof.
  intros u v H. replace (Rabs (rnd u)) with (rnd (Rabs u)); [apply rnd_mono; auto|].
  apply (@round_NE_abs radix2 (SpecFloat.fexp prec emax)). apply fexp_correct; auto.
Qed.
Lemma rnd_0 : rnd 0 = 0. Proof. apply round_0. apply valid_rnd_round_mode. Qed.

Lemma plus_val : forall x y : fl, is_finite x = true -> is_finite y = true -> Rabs (rnd (B2R x + B2R y)) < bpow radix2 emax ->
  B2R (Bplus mode_NE x y) = rnd (B2R x + B2R y) /\ is_finite (Bplus mode_NE x y) = true.
Proof.
  intros x y Fx Fy H. pose proof (Bplus_correct prec emax _ _ mode_NE x y Fx Fy) as K.
  rewrite Rlt_bool_true in K by auto. tauto.
Qed.
Lemma mult_val : forall x y : fl, is_finite x = true -> is_finite y = true -> Rabs (rnd (B2R x * B2R y)) < bpow radix2 emax ->
  B2R (Bmult mode_NE x y) = rnd (B2R x * B2R y) /\ is_finite (Bmult mode_NE x y) = true.
Proof.
  intros x y Fx Fy H. pose proof (Bmult_correct prec emax _ _ mode_NE x y) as K.
  rewrite Rlt_bool_true in K by auto. rewrite Fx, Fy in K. tauto.
Qed.
Lemma plus_inv : forall x y : fl, is_finite (Bplus mode_NE x y) = true ->
  B2R (Bplus mode_NE x y) = rnd (B2R x + B2R y) /\ Rabs (rnd (B2R x + B2R y)) < bpow radix2 emax.
Proof.
  intros x y F. destruct (plus_fin _ _ F) as [Fx Fy]. pose proof (Bplus_correct prec emax _ _ mode_NE x y Fx Fy) as K.
  destruct (Rlt_bool_spec (Rabs (rnd (B2R x + B2R y))) (bpow radix2 emax)) as [L|L]; [tauto|].
  destruct K as [K _]. rewrite <- is_finite_SF_B2SF, K in F. discriminate.
Qed.
Lemma mult_inv : forall x y : fl, is_finite (Bmult mode_NE x y) = true ->
  B2R (Bmult mode_NE x y) = rnd (B2R x * B2R y) /\ Rabs (rnd (B2R x * B2R y)) < bpow radix2 emax.
Proof.
  intros x y F. pose proof (Bmult_correct prec emax _ _ mode_NE x y) as K.
  destruct (Rlt_bool_spec (Rabs (rnd (B2R x * B2R y))) (bpow radix2 emax)) as [L|L]; [tauto|].
  rewrite <- is_finite_SF_B2SF, K in F. discriminate.
Qed.

Lemma dominated_monotone : monotone (ieee_ops prec emax Hp He) (@dominated prec emax).
Proof.
  constructor; simpl; auto.
  - intros _. split; auto. simpl. rewrite Rabs_R0. lra.
  - intros x1 x2 y1 y2 Hx Hy F. destruct (plus_inv _ _ F) as [E L]. destruct (plus_fin _ _ F) as [F1 F2].
    destruct (Hx F1) as [G1 B1]. destruct (Hy F2) as [G2 B2].
    assert (M : Rabs (rnd (B2R x1 + B2R y1)) <= rnd (B2R x2 + B2R y2)).
    { apply rnd_abs. eapply Rle_trans; [apply Rabs_triang|lra]. }
    destruct (@plus_val x1 y1) as [E1 E2]; auto.
    { eapply Rle_lt_trans; [exact M|]. eapply Rle_lt_trans; [apply Rle_abs|exact L]. }
    split; auto. rewrite E1, E. auto.
  - intros x1 x2 y1 y2 Hx Hy F. destruct (mult_inv _ _ F) as [E L]. destruct (mult_fin _ _ F) as [F1 F2].
    destruct (Hx F1) as [G1 B1]. destruct (Hy F2) as [G2 B2].
    assert (M : Rabs (rnd (B2R x1 * B2R y1)) <= rnd (B2R x2 * B2R y2)).
    { apply rnd_abs. rewrite Rabs_mult. apply Rmult_le_compat; auto using Rabs_pos. }
    destruct (@mult_val x1 y1) as [E1 E2]; auto.
    { eapply Rle_lt_trans; [exact M|]. eapply Rle_lt_trans; [apply Rle_abs|exact L]. }
    split; auto. rewrite E1, E. auto.
Qed.
Lemma nonneg_monotone : monotone (ieee_ops prec emax Hp He) (@nonneg_below prec emax).
Proof.
  constructor; simpl; auto.
  - intros _. split; auto. simpl. lra.
  - intros x1 x2 y1 y2 Hx Hy F. destruct (plus_inv _ _ F) as [E L]. destruct (plus_fin _ _ F) as [F1 F2].
    destruct (Hx F1) as [G1 B1]. destruct (Hy F2) as [G2 B2].
    assert (M : rnd (B2R x1 + B2R y1) <= rnd (B2R x2 + B2R y2)) by (apply rnd_mono; lra).
    assert (P : 0 <= rnd (B2R x1 + B2R y1)) by (rewrite <- rnd_0; apply rnd_mono; lra).
    destruct (@plus_val x1 y1) as [E1 E2]; auto.
    { rewrite Rabs_pos_eq by auto. eapply Rle_lt_trans; [exact M|]. eapply Rle_lt_trans; [apply Rle_abs|exact L]. }
    split; auto. rewrite E1, E. auto.
  - intros x1 x2 y1 y2 Hx Hy F. destruct (mult_inv _ _ F) as [E L]. destruct (mult_fin _ _ F) as [F1 F2].
    destruct (Hx F1) as [G1 B1]. destruct (Hy F2) as [G2 B2].
    assert (M : rnd (B2R x1 * B2R y1) <= rnd (B2R x2 * B2R y2)) by (apply rnd_mono; apply Rmult_le_compat; lra).
    assert (P : 0 <= rnd (B2R x1 * B2R y1)) by (rewrite <- rnd_0; apply rnd_mono; apply Rmult_le_pos; lra).
    destruct (@mult_val x1 y1) as [E1 E2]; auto.
    { rewrite Rabs_pos_eq by auto. eapply Rle_lt_trans; [exact M|]. eapply Rle_lt_trans; [apply Rle_abs|exact L]. }
    split; auto. rewrite E1, E. auto.
Qed.
Lemma dominated_dec : forall x y : fl, is_finite x = true -> Bleb (Babs x) y = true -> dominated x y.
Proof.
  intros x y Fx L Fy. split; auto. rewrite Bleb_correct, B2R_Babs in L; auto; [|rewrite is_finite_Babs; auto].
  destruct (Rle_bool_spec (Rabs (B2R x)) (B2R y)); auto. discriminate.
Qed.
End MonoI.

(** Signs in IEEE arithmetic and powers of two in arithmetic without exponent limits are graded. *)
From Coq Require Import ZArith Reals Bool Lia Lra.
From Flocq Require Import Core.Core IEEE754.BinarySingleNaN.
From Verif Require Import Scalar Spec View Ieee SpecUnit.
Set Implicit Arguments.
Local Open Scope R_scope.

Section Signs.
Variables prec emax : Z.
Context (Hp : FLX.Prec_gt_0 prec) (He : Prec_lt_emax prec emax).
Notation fl := (binary_float prec emax).
Notation rnd := (Generic_fmt.round radix2 (SpecFloat.fexp prec emax) (round_mode mode_NE)).

Lemma rnd_opp : forall u, rnd (- u) = - rnd u.
Proof. intros. apply (@round_NE_opp radix2 (SpecFloat.fexp prec emax)). Qed.
Lemma signed_B2R : forall s (x : fl), B2R (signed s x) = (if s then - B2R x else B2R x).
Proof. intros [] x; simpl; auto. apply B2R_Bopp. Qed.
Lemma signed_fin : forall s (x : fl), is_finite (signed s x) = is_finite x.
Proof. intros [] x; simpl; auto. apply is_finite_Bopp. Qed.
Lemma signed_twice : forall s t (x : fl), signed s (signed t x) = signed (xorb s t) x.
Proof. intros [] [] x; simpl; auto. apply Bopp_involutive. Qed.
Lemma flipped_0 : forall s (x y : fl), flipped s x y -> flipped0 s x y. Proof. intros. left; auto. Qed.
Lemma f0_fin : forall s (x y : fl), flipped0 s x y -> is_finite y = is_finite x.
Proof. intros s x y [->|[[u ->] [v ->]]]; auto. apply signed_fin. Qed.
Lemma f0_B2R : forall s (x y : fl), flipped0 s x y -> B2R y = (if s then - B2R x else B2R x).
Proof. intros s x y [->|[[u ->] [v ->]]]; [apply signed_B2R|]. destruct s; simpl; ring. Qed.
Lemma zero_of : forall x : fl, is_finite x = true -> B2R x = 0 -> exists u : bool, x = B754_zero u.
Proof.
  intros [u|u| |u m e K] F E; try discriminate; eauto. exfalso. apply eq_0_F2R in E. simpl in E. destruct u; discriminate.
Qed.
Lemma of_B2R : forall (s : bool) (x y : fl), is_finite x = true -> is_finite y = true -> B2R y = (if s then - B2R x else B2R x) -> flipped0 s x y.
Proof.
  intros s x y Fx Fy E. destruct (Req_dec (B2R x) 0) as [Z|N].
  - right. split; apply zero_of; auto. rewrite E, Z. destruct s; ring.
  - left. rewrite <- signed_B2R in E. apply B2R_inj; auto.
    + destruct y; simpl in *; auto; try discriminate. destruct s; simpl in E; [rewrite B2R_Bopp in E; lra|lra].
    + assert (is_finite_strict x = true) by (destruct x; simpl in *; auto; discriminate). destruct s; simpl; auto. rewrite is_finite_strict_Bopp; auto.
Qed.
(** Overflow: the sign of the infinity is that of the exact result. *)
Lemma over_plus : forall x y : fl, is_finite x = true -> is_finite y = true -> bpow radix2 emax <= Rabs (rnd (B2R x + B2R y)) ->
  Bplus mode_NE x y = B754_infinity (Rlt_bool (B2R x + B2R y) 0).
Proof.
  intros x y Fx Fy L. pose proof (Bplus_correct prec emax _ _ mode_NE x y Fx Fy) as K. rewrite Rlt_bool_false in K by auto.
  destruct K as [K S]. apply B2SF_inj. rewrite K. unfold binary_overflow. simpl. f_equal.
  assert (N : B2R x + B2R y <> 0).
  { intros Z. rewrite Z, round_0, Rabs_R0 in L by apply valid_rnd_round_mode. pose proof (bpow_gt_0 radix2 emax). lra. }
  destruct x as [u|u| |u m e B], y as [v|v| |v m' e' B']; try discriminate; simpl in *; subst.
  - exfalso; lra.
  - destruct v; simpl SpecFloat.cond_Zopp in *; [rewrite Rlt_bool_true|rewrite Rlt_bool_false]; auto.
    + assert (F2R (Defs.Float radix2 (Z.neg m) e) < 0) by (apply F2R_lt_0; simpl; lia).
      assert (F2R (Defs.Float radix2 (Z.neg m') e') < 0) by (apply F2R_lt_0; simpl; lia). lra.
    + assert (0 <= F2R (Defs.Float radix2 (Z.pos m) e)) by (apply F2R_ge_0; simpl; lia).
      assert (0 <= F2R (Defs.Float radix2 (Z.pos m') e')) by (apply F2R_ge_0; simpl; lia). lra.
Qed.
Lemma plus_flipped : forall s (x1 x2 y1 y2 : fl), flipped0 s x1 x2 -> flipped0 s y1 y2 -> flipped0 s (Bplus mode_NE x1 y1) (Bplus mode_NE x2 y2).
Proof.
  intros s x1 x2 y1 y2 Hx Hy. destruct (is_finite x1) eqn:Fx; [destruct (is_finite y1) eqn:Fy|].
  - pose proof (f0_fin Hx) as Fx2. pose proof (f0_fin Hy) as Fy2. rewrite Fx in Fx2. rewrite Fy in Fy2.
    assert (E : B2R x2 + B2R y2 = if s then - (B2R x1 + B2R y1) else B2R x1 + B2R y1).
    { rewrite (f0_B2R Hx), (f0_B2R Hy). destruct s; ring. }
    assert (RE : rnd (B2R x2 + B2R y2) = if s then - rnd (B2R x1 + B2R y1) else rnd (B2R x1 + B2R y1)).
    { rewrite E. destruct s; auto. apply rnd_opp. }
    destruct (Rlt_or_le (Rabs (rnd (B2R x1 + B2R y1))) (bpow radix2 emax)) as [L|L].
    + pose proof (Bplus_correct prec emax _ _ mode_NE x1 y1 Fx Fy) as K1. rewrite Rlt_bool_true in K1 by auto.
      pose proof (Bplus_correct prec emax _ _ mode_NE x2 y2 Fx2 Fy2) as K2.
      rewrite Rlt_bool_true in K2 by (rewrite RE; destruct s; rewrite ?Rabs_Ropp; auto).
      destruct K1 as (E1 & F1 & _), K2 as (E2 & F2 & _). apply of_B2R; auto. rewrite E1, E2. auto.
    + rewrite over_plus by auto. rewrite over_plus; auto; [|rewrite RE; destruct s; rewrite ?Rabs_Ropp; auto]. left.
      assert (N : B2R x1 + B2R y1 <> 0).
      { intros Z. rewrite Z, round_0, Rabs_R0 in L by apply valid_rnd_round_mode. pose proof (bpow_gt_0 radix2 emax). lra. }
      rewrite E. destruct s; simpl; auto. f_equal.
      destruct (Rlt_bool_spec (B2R x1 + B2R y1) 0); [rewrite Rlt_bool_false|rewrite Rlt_bool_true]; auto; lra.
  - destruct Hx as [->|[[u ->] [v ->]]], Hy as [->|[[u' ->] [v' ->]]]; try discriminate; destruct y1 as [u1|u1| |u1 m1 e1 B1]; try discriminate;
      destruct s; simpl; try destruct x1 as [u2|u2| |u2 m2 e2 B2]; try discriminate; left; simpl; auto.
  - destruct Hx as [->|[[u ->] [v ->]]]; try discriminate; destruct x1 as [u1|u1| |u1 m1 e1 B1]; try discriminate;
      destruct Hy as [->|[[u' ->] [v' ->]]]; destruct s; simpl; try destruct y1 as [u2|u2| |u2 m2 e2 B2]; left; simpl; auto;
      try (destruct u1, u2; reflexivity).
Qed.
Lemma mult_flipped : forall s t (x1 x2 y1 y2 : fl), flipped0 s x1 x2 -> flipped0 t y1 y2 -> flipped0 (xorb s t) (Bmult mode_NE x1 y1) (Bmult mode_NE x2 y2).
Proof.
  intros s t x1 x2 y1 y2 Hx Hy. destruct (is_finite x1) eqn:Fx; [destruct (is_finite y1) eqn:Fy|].
  - pose proof (f0_fin Hx) as Fx2. pose proof (f0_fin Hy) as Fy2. rewrite Fx in Fx2. rewrite Fy in Fy2.
    assert (E : B2R x2 * B2R y2 = if xorb s t then - (B2R x1 * B2R y1) else B2R x1 * B2R y1).
    { rewrite (f0_B2R Hx), (f0_B2R Hy). destruct s, t; simpl; ring. }
    assert (RE : rnd (B2R x2 * B2R y2) = if xorb s t then - rnd (B2R x1 * B2R y1) else rnd (B2R x1 * B2R y1)).
    { rewrite E. destruct (xorb s t); auto. apply rnd_opp. }
    pose proof (Bmult_correct prec emax _ _ mode_NE x1 y1) as K1. pose proof (Bmult_correct prec emax _ _ mode_NE x2 y2) as K2.
    destruct (Rlt_or_le (Rabs (rnd (B2R x1 * B2R y1))) (bpow radix2 emax)) as [L|L].
    + rewrite Rlt_bool_true in K1 by auto. rewrite Rlt_bool_true in K2 by (rewrite RE; destruct (xorb s t); rewrite ?Rabs_Ropp; auto).
      destruct K1 as (E1 & F1 & _), K2 as (E2 & F2 & _). rewrite Fx, Fy in F1. rewrite Fx2, Fy2 in F2. apply of_B2R; auto. rewrite E1, E2. auto.
    + rewrite Rlt_bool_false in K1 by auto. rewrite Rlt_bool_false in K2 by (rewrite RE; destruct (xorb s t); rewrite ?Rabs_Ropp; auto).
      assert (N : B2R x1 * B2R y1 <> 0).
      { intros Z. rewrite Z, round_0, Rabs_R0 in L by apply valid_rnd_round_mode. pose proof (bpow_gt_0 radix2 emax). lra. }
      left. apply B2SF_inj. rewrite K2. unfold binary_overflow in *. simpl in *.
      destruct (Bmult mode_NE x1 y1) as [u|u| |u m e B]; simpl in K1; try discriminate. injection K1 as ->.
      destruct Hx as [->|[[u1 ->] [v1 ->]]]; [|simpl in N; exfalso; lra]. destruct Hy as [->|[[u1 ->] [v1 ->]]]; [|simpl in N; exfalso; lra].
      destruct s, t; simpl; rewrite ?Bsign_Bopp by (destruct x1, y1; auto; discriminate); destruct (Bsign x1), (Bsign y1); reflexivity.
  - destruct Hx as [->|[[u ->] [v ->]]], Hy as [->|[[u' ->] [v' ->]]]; try discriminate; destruct y1 as [u1|u1| |u1 m1 e1 B1]; try discriminate;
      destruct s, t; simpl; try destruct x1 as [u2|u2| |u2 m2 e2 B2]; try discriminate; left; simpl; auto; try (destruct u1, u2; reflexivity).
  - destruct Hx as [->|[[u ->] [v ->]]]; try discriminate; destruct x1 as [u1|u1| |u1 m1 e1 B1]; try discriminate;
      destruct Hy as [->|[[u' ->] [v' ->]]]; destruct s, t; simpl; try destruct y1 as [u2|u2| |u2 m2 e2 B2]; left; simpl; auto;
      try (destruct u1, u2; reflexivity).
Qed.
Lemma minus_plus : forall x y : fl, Bminus mode_NE x y = Bplus mode_NE x (Bopp y).
Proof. intros [u|u| |u m e B] [v|v| |v m' e' B']; reflexivity. Qed.
Lemma minus_flipped : forall s (x1 x2 y1 y2 : fl), flipped0 s x1 x2 -> flipped0 s y1 y2 -> flipped0 s (Bminus mode_NE x1 y1) (Bminus mode_NE x2 y2).
Proof.
  intros s x1 x2 y1 y2 Hx Hy. rewrite !minus_plus. apply plus_flipped; auto.
  destruct Hy as [->|[[u ->] [v ->]]]; [left; destruct s; auto|right; simpl; eauto].
Qed.
Lemma div_flipped : forall s t (x1 x2 y1 y2 : fl), flipped0 s x1 x2 -> flipped t y1 y2 -> flipped0 (xorb s t) (Bdiv mode_NE x1 y1) (Bdiv mode_NE x2 y2).
Proof.
  intros s t x1 x2 y1 y2 Hx Hy. unfold flipped in Hy. subst y2.
  destruct (is_finite x1) eqn:Fx; [destruct (is_finite_strict y1) eqn:Fy|].
  - assert (Fs : is_finite_strict (signed t y1) = true) by (destruct t; simpl; auto; rewrite is_finite_strict_Bopp; auto).
    pose proof (f0_fin Hx) as Fx2. rewrite Fx in Fx2.
    assert (Ny : B2R y1 <> 0) by (intros Z; destruct y1 as [u|u| |u m e B]; try discriminate; apply eq_0_F2R in Z; simpl in Z; destruct u; discriminate).
    assert (Nz : B2R (signed t y1) <> 0) by (rewrite signed_B2R; destruct t; lra).
    assert (E : B2R x2 / B2R (signed t y1) = if xorb s t then - (B2R x1 / B2R y1) else B2R x1 / B2R y1).
    { rewrite (f0_B2R Hx), signed_B2R. destruct s, t; simpl; field; auto. }
    assert (RE : rnd (B2R x2 / B2R (signed t y1)) = if xorb s t then - rnd (B2R x1 / B2R y1) else rnd (B2R x1 / B2R y1)).
    { rewrite E. destruct (xorb s t); auto. apply rnd_opp. }
    pose proof (Bdiv_correct prec emax _ _ mode_NE x1 y1 Ny) as K1. pose proof (Bdiv_correct prec emax _ _ mode_NE x2 (signed t y1) Nz) as K2.
    destruct (Rlt_or_le (Rabs (rnd (B2R x1 / B2R y1))) (bpow radix2 emax)) as [L|L].
    + rewrite Rlt_bool_true in K1 by auto. rewrite Rlt_bool_true in K2 by (rewrite RE; destruct (xorb s t); rewrite ?Rabs_Ropp; auto).
      destruct K1 as (E1 & F1 & _), K2 as (E2 & F2 & _). rewrite Fx in F1. rewrite Fx2 in F2. apply of_B2R; auto. rewrite E1, E2. auto.
    + rewrite Rlt_bool_false in K1 by auto. rewrite Rlt_bool_false in K2 by (rewrite RE; destruct (xorb s t); rewrite ?Rabs_Ropp; auto).
      assert (N : B2R x1 <> 0).
      { intros Z. rewrite Z in L. unfold Rdiv in L. rewrite Rmult_0_l, round_0, Rabs_R0 in L by apply valid_rnd_round_mode. pose proof (bpow_gt_0 radix2 emax). lra. }
      left. apply B2SF_inj. rewrite K2. unfold binary_overflow in *. simpl in *.
      destruct (Bdiv mode_NE x1 y1) as [u|u| |u m e B]; simpl in K1; try discriminate. injection K1 as ->.
      destruct Hx as [->|[[u1 ->] [v1 ->]]]; [|simpl in N; exfalso; lra].
      destruct s, t; simpl; rewrite ?Bsign_Bopp by (destruct x1, y1; auto; discriminate); destruct (Bsign x1), (Bsign y1); reflexivity.
  - destruct y1 as [u1|u1| |u1 m1 e1 B1]; try discriminate; destruct Hx as [->|[[u ->] [v ->]]]; destruct s, t; simpl;
      try destruct x1 as [u2|u2| |u2 m2 e2 B2]; try discriminate; simpl; try (left; simpl; auto; destruct u1, u2; reflexivity);
      try (left; reflexivity); right; eauto.
  - destruct Hx as [->|[[u ->] [v ->]]]; try discriminate; destruct x1 as [u1|u1| |u1 m1 e1 B1]; try discriminate;
      destruct s, t; simpl; destruct y1 as [u2|u2| |u2 m2 e2 B2]; left; simpl; auto; try (destruct u1, u2; reflexivity).
Qed.

(** Second factors and results up to signs of zeros. *)
Lemma signs_graded : forall s t, graded (ieee_ops prec emax Hp He) (flipped s) (flipped0 t) (flipped0 (xorb s t)).
Proof.
  intros s t. constructor; simpl; auto.
  - right; eauto.
  - intros; apply plus_flipped; auto.
  - intros; apply mult_flipped; auto. apply flipped_0; auto.
  - intros; rewrite xorb_comm. apply mult_flipped; auto. apply flipped_0; auto.
Qed.
(** Both factors exactly. *)
Lemma signs_square : forall s, graded (ieee_ops prec emax Hp He) (flipped s) (flipped s) (flipped0 false).
Proof.
  intros s. rewrite <- (xorb_nilpotent s). constructor; simpl; auto.
  - right; eauto.
  - intros; apply plus_flipped; auto.
  - intros; apply mult_flipped; auto using flipped_0.
  - intros; apply mult_flipped; auto using flipped_0.
Qed.
Lemma signs_div : forall s t, graded_div (ieee_ops prec emax Hp He) (flipped s) (flipped0 t) (flipped0 (xorb s t)).
Proof.
  intros s t. constructor; simpl.
  - intros; apply minus_flipped; auto.
  - intros a1 a2 r1 r2 Hr Ha. replace t with (xorb (xorb s t) s) at 1 by (destruct s, t; auto). apply div_flipped; auto.
Qed.
End Signs.

(** * Powers of two *)
Section Digits.
Variable prec : Z.
Context (Hp : FLX.Prec_gt_0 prec).
Lemma round_shift : forall k x, round_digits prec (bpow radix2 k * x) = bpow radix2 k * round_digits prec x.
Proof.
  intros k x. unfold round_digits. destruct (Req_dec x 0) as [->|N].
  { rewrite Rmult_0_r, round_0 by apply valid_rnd_N. ring. }
  unfold Generic_fmt.round, F2R. simpl.
  assert (C : cexp radix2 (FLX.FLX_exp prec) (bpow radix2 k * x) = (cexp radix2 (FLX.FLX_exp prec) x + k)%Z).
  { unfold cexp, FLX.FLX_exp. rewrite Rmult_comm, mag_mult_bpow by auto. lia. }
  rewrite C. unfold scaled_mantissa. rewrite C.
  replace (bpow radix2 k * x * bpow radix2 (- (cexp radix2 (FLX.FLX_exp prec) x + k))) with (x * bpow radix2 (- cexp radix2 (FLX.FLX_exp prec) x)).
  - rewrite bpow_plus. ring.
  - replace (- (cexp radix2 (FLX.FLX_exp prec) x + k))%Z with (- cexp radix2 (FLX.FLX_exp prec) x + - k)%Z by lia.
    rewrite bpow_plus, (bpow_opp radix2 k). field. apply Rgt_not_eq, bpow_gt_0.
Qed.
Lemma shifts_graded : forall j k, graded (digits_ops prec) (shifted j) (shifted k) (shifted (j + k)).
Proof.
  intros j k. constructor; simpl; unfold shifted; auto.
  - ring.
  - intros r1 r2 s1 s2 -> ->. rewrite <- Rmult_plus_distr_l. apply round_shift.
  - intros a1 a2 x1 x2 -> ->. rewrite <- round_shift, bpow_plus. f_equal. ring.
  - intros a1 a2 x1 x2 -> ->. rewrite <- round_shift, bpow_plus. f_equal. ring.
Qed.
Lemma shifts_div : forall j k, graded_div (digits_ops prec) (shifted j) (shifted k) (shifted (j + k)).
Proof.
  intros j k. constructor; simpl; unfold shifted.
  - intros r1 r2 s1 s2 -> ->. rewrite <- Rmult_minus_distr_l. apply round_shift.
  - intros a1 a2 r1 r2 -> ->. rewrite <- round_shift, bpow_plus. f_equal. pose proof (bpow_gt_0 radix2 j).
    destruct (Req_dec a1 0) as [->|N]; [unfold Rdiv; rewrite Rmult_0_r, Rinv_0; ring|field; split; auto; lra].
Qed.
End Digits.
Lemma unit_signs : forall prec emax (t : bool) (d : diagonal) (Hp : FLX.Prec_gt_0 prec) (He : Prec_lt_emax prec emax),
  @unit_ok (ieee_ops prec emax Hp He) d (flipped0 t) (flipped0 (xorb false t)) /\ @unit_ok (ieee_ops prec emax Hp He) d (flipped0 (xorb false t)) (flipped0 t).
Proof. intros prec emax t d Hp He. rewrite xorb_false_l. split; intros _ u v K; exact K. Qed.

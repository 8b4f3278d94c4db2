(** Lemmas for C94: payloads of NaNs are irrelevant. *)
From Coq Require Import ZArith Bool.
From Flocq Require Import Core.Core IEEE754.BinarySingleNaN IEEE754.Binary.
From Verif Require Import Mem Scalar View Norm Givens Ieee IeeeC Payload SpecRel SpecRel2 SpecPay.

Section Pay.
Variables prec emax : Z.
Context (Hp : Prec_gt_0 prec) (He : Prec_lt_emax prec emax).
Notation fl := (Binary.binary_float prec emax).
Notation E := (B2BSN prec emax).
Lemma same_iff : forall x y : fl, same_number x y <-> E x = E y.
Proof.
  intros x y. split.
  - intros [->|[H1 H2]]; auto. destruct x, y; simpl in *; try discriminate; auto.
  - destruct x, y; simpl; intros H; try discriminate; try (right; split; reflexivity); try (injection H; intros; subst; left; reflexivity).
    left. injection H. intros. subst. f_equal. apply Eqdep_dec.UIP_dec, bool_dec.
Qed.
Lemma e_build : forall n : { x : fl | Binary.is_nan prec emax x = true }, E (Binary.build_nan prec emax n) = BinarySingleNaN.B754_nan.
Proof. intros [x H]. destruct x; try discriminate. reflexivity. Qed.
Lemma e_bsn : forall n x, E (BSN2B prec emax n x) = x.
Proof. intros n [s|s| |s m e H]; simpl; auto; apply e_build. Qed.
Section One.
Variable N : nan_choice prec emax.
Lemma e_add : forall x y, E (padd prec emax Hp He N x y) = BinarySingleNaN.Bplus mode_NE (E x) (E y).
Proof. intros. apply e_bsn. Qed.
Lemma e_sub : forall x y, E (psub prec emax Hp He N x y) = BinarySingleNaN.Bminus mode_NE (E x) (E y).
Proof. intros. apply e_bsn. Qed.
Lemma e_mul : forall x y, E (pmul prec emax Hp He N x y) = BinarySingleNaN.Bmult mode_NE (E x) (E y).
Proof. intros. apply e_bsn. Qed.
Lemma e_div : forall x y, E (pdiv prec emax Hp He N x y) = BinarySingleNaN.Bdiv mode_NE (E x) (E y).
Proof. intros. apply e_bsn. Qed.
Lemma e_sqrt : forall x, E (psqrt prec emax Hp He N x) = BinarySingleNaN.Bsqrt mode_NE (E x).
Proof. intros. apply e_bsn. Qed.
Lemma e_abs : forall x, E (pabs prec emax N x) = BinarySingleNaN.Babs (E x).
Proof. intros [s|s|s pl H|s m e H]; simpl; auto; apply e_build. Qed.
Lemma e_opp : forall x, E (popp prec emax N x) = BinarySingleNaN.Bopp (E x).
Proof. intros [s|s|s pl H|s m e H]; simpl; auto; apply e_build. Qed.
Lemma e_one : E (pone prec emax Hp He) = BinarySingleNaN.Bone.
Proof. unfold pone, Binary.Bone. apply B2BSN_BSN2B'. Qed.
Lemma e_nan : forall x : fl, Binary.is_nan prec emax x = BinarySingleNaN.is_nan (E x).
Proof. intros []; reflexivity. Qed.
Lemma e_compare : forall x y : fl, pcompare prec emax x y = BinarySingleNaN.Bcompare (E x) (E y).
Proof. reflexivity. Qed.
Lemma e_ltb : forall x y : fl, pltb prec emax x y = BinarySingleNaN.Bltb (E x) (E y).
Proof. intros. reflexivity. Qed.
Lemma e_leb : forall x y : fl, pleb prec emax x y = BinarySingleNaN.Bleb (E x) (E y).
Proof. intros. reflexivity. Qed.
Lemma e_eqb : forall x y : fl, peqb prec emax x y = BinarySingleNaN.Beqb (E x) (E y).
Proof. intros. reflexivity. Qed.
(** Forgetting the payload *)
Lemma forgets_respects : @respects (pay_ops prec emax Hp He N) (ieee_ops prec emax Hp He) forgets.
Proof.
  constructor; unfold forgets; cbn [zero add sub mul conj re pay_ops ieee_ops]; intros; subst; auto; symmetry;
    first [apply e_add | apply e_sub | apply e_mul].
Qed.
Lemma forgets_div : @respects_op (pay_ops prec emax Hp He N) (ieee_ops prec emax Hp He) forgets (@div (pay_ops prec emax Hp He N)) (@div (ieee_ops prec emax Hp He)).
Proof. intros x1 x2 y1 y2 H1 H2. unfold forgets in *. subst. symmetry. apply e_div. Qed.
Lemma forgets_mag : @respects_mag (pay_r prec emax Hp He N) (ieee_r prec emax Hp He) forgets.
Proof.
  constructor; unfold forgets; cbn [r0 r1 radd rsub rmul rdiv rsqrt rabs rltb reqb pay_r ieee_r]; intros; subst; auto;
    first [symmetry; first [apply e_one | apply e_add | apply e_mul | apply e_div | apply e_sqrt | apply e_abs] | apply e_ltb | apply e_eqb].
Qed.
Lemma forgets_float : forall h1 h2, (forall x y, h2 (E x) (E y) = E (h1 x y)) ->
  @respects_float (pay_f prec emax Hp He N h1) (ieee prec emax Hp He h2) forgets.
Proof.
  intros h1 h2 Hh. constructor; [exact forgets_mag|..]; unfold forgets; cbn; intros; subst; auto;
    first [symmetry; first [apply e_sub | apply e_opp] | apply e_leb | apply e_nan | idtac].
Qed.
Lemma forgets_mags : @mags_related (pay_ops prec emax Hp He N) (ieee_ops prec emax Hp He) (pay_r prec emax Hp He N) (ieee_r prec emax Hp He) forgets forgets (pay_mags prec emax Hp He N)
  (@Mags (ieee_ops prec emax Hp He) (ieee_r prec emax Hp He) true (@BinarySingleNaN.Babs prec emax) (fun x => x) (fun _ => BinarySingleNaN.B754_zero false)).
Proof.
  repeat split; cbn [eabs ereal eimag pay_mags]; unfold forgets; intros; subst; auto. symmetry. apply e_abs.
Qed.
Lemma forgets_complex : forall rec1 div1 rec2 div2,
  (forall x1 x2 y1 y2, forgets_c x1 x2 -> forgets_c y1 y2 -> forgets_c (rec1 x1 y1) (rec2 x2 y2)) ->
  @respects (pay_c prec emax Hp He N rec1 div1) (ieee_c prec emax Hp He rec2 div2) forgets_c.
Proof.
  intros rec1 div1 rec2 div2 Hr.
  constructor; cbn [zero add sub mul conj re pay_c ieee_c].
  - split; reflexivity.
  - intros x1 x2 y1 y2 [A1 A2] [B1 B2]. split; unfold forgets in *; cbn [fst snd cadd]; rewrite e_add; congruence.
  - intros x1 x2 y1 y2 [A1 A2] [B1 B2]. split; unfold forgets in *; cbn [fst snd csub]; rewrite e_sub; congruence.
  - intros x1 x2 y1 y2 HA HB. assert (HA' := HA). assert (HB' := HB). destruct HA' as [A1 A2], HB' as [B1 B2].
    assert (K : forgets_c (pcmul_plain prec emax Hp He N x1 y1) (cmul_plain prec emax Hp He x2 y2)).
    { split; unfold forgets in *; cbn [fst snd pcmul_plain cmul_plain]; rewrite ?e_sub, ?e_add, !e_mul; congruence. }
    unfold pcmul, cmul. cbv zeta. rewrite !e_nan. destruct K as [K1 K2]. unfold forgets in K1, K2. rewrite <- K1, <- K2.
    destruct (_ && _); auto. split; auto.
  - intros x1 x2 [A1 A2]. split; unfold forgets in *; cbn [fst snd cconj]; rewrite ?e_opp; congruence.
  - intros x1 x2 [A1 A2]. split; auto. reflexivity.
Qed.
End One.

(** Two runs *)
Section Two.
Variables N1 N2 : nan_choice prec emax.
Ltac sm := repeat match goal with H : same_number _ _ |- _ => apply same_iff in H end; try apply same_iff.
Lemma same_respects : @respects (pay_ops prec emax Hp He N1) (pay_ops prec emax Hp He N2) same_number.
Proof.
  constructor; cbn [zero add sub mul conj re pay_ops]; intros; sm; auto; rewrite ?e_add, ?e_sub, ?e_mul; congruence.
Qed.
Lemma same_div : @respects_op (pay_ops prec emax Hp He N1) (pay_ops prec emax Hp He N2) same_number (@div (pay_ops prec emax Hp He N1)) (@div (pay_ops prec emax Hp He N2)).
Proof. intros x1 x2 y1 y2 H1 H2. sm. cbn [div pay_ops]. rewrite !e_div. congruence. Qed.
Lemma same_mag : @respects_mag (pay_r prec emax Hp He N1) (pay_r prec emax Hp He N2) same_number.
Proof.
  constructor; cbn [r0 r1 radd rsub rmul rdiv rsqrt rabs rltb reqb pay_r]; intros; sm; auto;
    rewrite ?e_add, ?e_mul, ?e_div, ?e_sqrt, ?e_abs, ?e_ltb, ?e_eqb; congruence.
Qed.
Lemma same_float : forall h1 h2, (forall x1 x2 y1 y2, same_number x1 x2 -> same_number y1 y2 -> same_number (h1 x1 y1) (h2 x2 y2)) ->
  @respects_float (pay_f prec emax Hp He N1 h1) (pay_f prec emax Hp He N2 h2) same_number.
Proof.
  intros h1 h2 Hh. constructor; [exact same_mag|..]; cbn; intros; auto; sm; rewrite ?e_sub, ?e_opp, ?e_leb, ?e_nan; congruence.
Qed.
Lemma same_mags : @mags_related (pay_ops prec emax Hp He N1) (pay_ops prec emax Hp He N2) (pay_r prec emax Hp He N1) (pay_r prec emax Hp He N2) same_number same_number (pay_mags prec emax Hp He N1) (pay_mags prec emax Hp He N2).
Proof.
  repeat split; cbn [eabs ereal eimag pay_mags]; intros; sm; auto. rewrite !e_abs. congruence.
Qed.
Lemma same_complex_respects : forall rec1 div1 rec2 div2,
  (forall x1 x2 y1 y2, same_complex x1 x2 -> same_complex y1 y2 -> same_complex (rec1 x1 y1) (rec2 x2 y2)) ->
  @respects (pay_c prec emax Hp He N1 rec1 div1) (pay_c prec emax Hp He N2 rec2 div2) same_complex.
Proof.
  intros rec1 div1 rec2 div2 Hr.
  constructor; cbn [zero add sub mul conj re pay_c].
  - split; left; reflexivity.
  - intros x1 x2 y1 y2 [A1 A2] [B1 B2]. split; cbn [fst snd]; sm; rewrite !e_add; congruence.
  - intros x1 x2 y1 y2 [A1 A2] [B1 B2]. split; cbn [fst snd]; sm; rewrite !e_sub; congruence.
  - intros x1 x2 y1 y2 HA HB. assert (HA' := HA). assert (HB' := HB). destruct HA' as [A1 A2], HB' as [B1 B2].
    assert (K : same_complex (pcmul_plain prec emax Hp He N1 x1 y1) (pcmul_plain prec emax Hp He N2 x2 y2)).
    { split; cbn [fst snd pcmul_plain]; sm; rewrite ?e_sub, ?e_add, !e_mul; congruence. }
    unfold pcmul. cbv zeta. rewrite !e_nan. destruct K as [K1 K2].
    assert (K1' := proj1 (same_iff _ _) K1). assert (K2' := proj1 (same_iff _ _) K2). rewrite K1', K2'.
    destruct (_ && _); auto. split; auto.
  - intros x1 x2 [A1 A2]. split; cbn [fst snd]; auto; sm; rewrite !e_opp; congruence.
  - intros x1 x2 [A1 A2]. split; auto. left; reflexivity.
Qed.
End Two.
End Pay.

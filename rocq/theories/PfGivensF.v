(** Termination of setup_givens_rotation in IEEE-754 arithmetic. *)
From Coq Require Import List Arith Bool ZArith Reals Lra Lia.
From Flocq Require Import Core.Core IEEE754.BinarySingleNaN.
From Verif Require Import Norm Givens Ieee.
Local Open Scope R_scope.

Section Term.
Variables prec emax : Z.
Context (Hp : Prec_gt_0 prec) (He : Prec_lt_emax prec emax).
Variable hypot : binary_float prec emax -> binary_float prec emax -> binary_float prec emax.
Notation F := (ieee prec emax Hp He hypot).
Notation fl := (binary_float prec emax).
Notation emin := (SpecFloat.emin prec emax).
Notation fexp := (SpecFloat.fexp prec emax).
Notation bp := (bpow radix2).
Notation rnd := (round radix2 fexp (round_mode mode_NE)).

(** safmn2 = 2^-e *)
Variables (e : Z) (sm : fl).
Hypothesis Esm : B2R sm = bp (- e).
Hypothesis E0 : (0 < e)%Z.
Hypothesis E1 : (emax < 4 * e)%Z.
Hypothesis E2 : (- emin < 4 * e)%Z.
Hypothesis E3 : (3 * e + emin < emax)%Z.

Instance vexp : Valid_exp fexp := fexp_correct prec emax Hp.

Lemma emin_val : emin = (3 - emax - prec)%Z.
Proof. reflexivity. Qed.

Lemma e_small : (e < emax)%Z.
Proof. pose proof (prec_lt_emax prec emax). rewrite emin_val in *. lia. Qed.

Lemma bp_format : forall k, (emin <= k)%Z -> generic_format radix2 fexp (bp k).
Proof.
  intros k Hk. apply generic_format_bpow. unfold SpecFloat.fexp.
  unfold Prec_gt_0 in Hp. lia.
Qed.

Lemma sm_fin : is_finite sm = true.
Proof.
  pose proof (bpow_gt_0 radix2 (- e)). destruct sm; auto; simpl in Esm; lra.
Qed.

Lemma rnd_le : forall x k, (emin <= k)%Z -> Rabs x <= bp k -> Rabs (rnd x) <= bp k.
Proof.
  intros. apply abs_round_le_generic; auto with typeclass_instances. apply bp_format; auto.
Qed.
Lemma rnd_ge : forall x k, (emin <= k)%Z -> bp k <= Rabs x -> bp k <= Rabs (rnd x).
Proof.
  intros. apply abs_round_ge_generic; auto with typeclass_instances. apply bp_format; auto.
Qed.

(** safmx2 = 2^e *)
Lemma mx_spec : B2R (@safmx2 F sm) = bp e /\ is_finite (@safmx2 F sm) = true.
Proof.
  unfold safmx2. change (@rdiv F) with (@Bdiv prec emax Hp He mode_NE). change (@r1 F) with (@Bone prec emax Hp He).
  assert (D : B2R sm <> 0) by (rewrite Esm; apply Rgt_not_eq, bpow_gt_0).
  pose proof (Bdiv_correct prec emax Hp He mode_NE (@Bone prec emax Hp He) sm D) as C.
  rewrite Bone_correct, Esm in C.
  replace (1 / bp (- e)) with (bp e) in C.
  2:{ rewrite bpow_opp. field. apply Rgt_not_eq, bpow_gt_0. }
  rewrite round_generic in C; auto with typeclass_instances.
  2:{ apply bp_format. pose proof E2. pose proof (prec_lt_emax prec emax). rewrite emin_val in *.
      unfold Prec_gt_0 in Hp. lia. }
  rewrite Rabs_pos_eq in C by apply bpow_ge_0.
  rewrite Rlt_bool_true in C by (apply bpow_lt; apply e_small).
  rewrite is_finite_Bone in C. tauto.
Qed.

(** NaN, or finite and at most 2^k *)
Definition below (k : Z) (x : fl) : Prop := is_nan x = true \/ (is_finite x = true /\ Rabs (B2R x) <= bp k).
(** NaN, or infinite, or at least 2^k *)
Definition above (k : Z) (x : fl) : Prop := is_finite x = false \/ bp k <= Rabs (B2R x).

Lemma mul_nan : forall x y : fl, is_nan x = true -> is_nan (Bmult (prec_gt_0_ := Hp) (prec_lt_emax_ := He) mode_NE x y) = true.
Proof. intros [] y; simpl; try discriminate; auto. Qed.

Lemma below_mul : forall k x, (emin <= k - e)%Z -> (k <= emax)%Z -> below k x -> below (k - e) (@rmul F x sm).
Proof.
  intros k x Hk Hk2 [N|(Fx & B)].
  - left. apply mul_nan; auto.
  - right. change (@rmul F) with (@Bmult prec emax Hp He mode_NE).
    pose proof (Bmult_correct prec emax Hp He mode_NE x sm) as C.
    assert (L : Rabs (rnd (B2R x * B2R sm)) <= bp (k - e)).
    { apply rnd_le; auto. rewrite Esm, Rabs_mult, (Rabs_pos_eq (bp (- e))) by apply bpow_ge_0.
      unfold Zminus. rewrite bpow_plus. apply Rmult_le_compat_r; auto. apply bpow_ge_0. }
    rewrite Rlt_bool_true in C.
    2:{ eapply Rle_lt_trans; [exact L|]. apply bpow_lt. lia. }
    rewrite Fx, sm_fin in C. destruct C as (C1 & C2 & _). rewrite C1. auto.
Qed.

Lemma above_mul : forall k x, (emin <= k + e)%Z -> above k x -> above (k + e) (@rmul F x (@safmx2 F sm)).
Proof.
  intros k x Hk A. destruct mx_spec as (M1 & M2).
  change (@rmul F) with (@Bmult prec emax Hp He mode_NE).
  pose proof (Bmult_correct prec emax Hp He mode_NE x (@safmx2 F sm)) as C.
  destruct A as [N|A].
  - left. change (@rcar (fbase F)) with fl in *. destruct (@safmx2 F sm) eqn:EE; simpl in M2; try discriminate;
    destruct x; simpl in N; try discriminate; simpl; auto.
  - match type of C with (if Rlt_bool ?u ?v then _ else _) => destruct (Rlt_bool_spec u v) end.
    + destruct C as (C1 & C2 & _). right. rewrite C1. apply rnd_ge; auto.
      rewrite M1, Rabs_mult, (Rabs_pos_eq (bp e)) by apply bpow_ge_0.
      rewrite bpow_plus. apply Rmult_le_compat_r; auto. apply bpow_ge_0.
    + left. rewrite <- is_finite_SF_B2SF, C. reflexivity.
Qed.

Lemma below_max : forall k x y, below k x -> below k y -> below k (@std_max F x y).
Proof. intros. unfold std_max. destruct (@rltb F x y); auto. Qed.
Lemma above_max : forall k x y, above k x -> above k y -> above k (@std_max F x y).
Proof. intros. unfold std_max. destruct (@rltb F x y); auto. Qed.
Lemma below_abs : forall k x, below k x -> below k (@rabs F x).
Proof.
  intros k x [N|(A & B)]; [left|right]; simpl.
  - rewrite is_nan_Babs; auto.
  - rewrite is_finite_Babs, B2R_Babs, Rabs_Rabsolu. auto.
Qed.
Lemma above_abs : forall k x, above k x -> above k (@rabs F x).
Proof.
  intros k x [N|A]; [left|right]; simpl.
  - rewrite is_finite_Babs; auto.
  - rewrite B2R_Babs, Rabs_Rabsolu. auto.
Qed.

Lemma below_stops : forall k x, (k < e)%Z -> below k x -> @rleb F (@safmx2 F sm) x = false.
Proof.
  intros k x Hk B. destruct mx_spec as (M1 & M2). simpl.
  destruct B as [N|(A & B)].
  - destruct x; try discriminate. destruct (@safmx2 F sm) as [[]|[]| |[]]; reflexivity.
  - rewrite Bleb_correct, M1 by auto. apply Rle_bool_false.
    apply Rle_lt_trans with (2 := bpow_lt radix2 _ _ Hk). eapply Rle_trans; [apply Rle_abs|]; auto.
Qed.

Lemma above_stops : forall k (x : fl), (- e < k)%Z -> above k x -> Bsign x = false -> @rleb F x sm = false.
Proof.
  intros k x Hk A S. simpl. pose proof sm_fin as Sf. destruct (is_finite x) eqn:Fx.
  - destruct A as [N|A]; [congruence|]. rewrite Bleb_correct, Esm by auto. apply Rle_bool_false.
    apply Rlt_le_trans with (1 := bpow_lt radix2 _ _ Hk).
    replace (B2R x) with (Rabs (B2R x)); auto.
    apply Rabs_pos_eq. destruct x as [[]|[]| |[]]; simpl in *; try discriminate; try lra.
    apply F2R_ge_0. simpl. lia.
  - destruct x as [[]|[]| |[]]; simpl in *; try discriminate; destruct sm as [[]|[]| |[]]; simpl in *; try discriminate; reflexivity.
Qed.

Lemma emin_neg : (emin <= 0)%Z.
Proof. pose proof (prec_lt_emax prec emax). rewrite emin_val. unfold Prec_gt_0 in Hp. lia. Qed.

(** Arguments that are not infinite are below 2^emax; arguments that are not zero are above 2^emin. *)
Lemma below_start : forall x : fl, is_inf prec emax x = false -> below emax x.
Proof.
  intros x H. destruct x as [s|s| |s m ex Hx] eqn:EE; try discriminate; [right|left|right]; auto.
  - simpl. rewrite Rabs_R0. split; auto. apply bpow_ge_0.
  - split; auto. apply Rlt_le. apply abs_B2R_lt_emax; auto.
Qed.
Lemma above_start : forall x : fl, is_zero prec emax x = false -> above emin x.
Proof.
  intros x H. destruct x as [s|s| |s m ex Hx] eqn:EE; try discriminate; [left|left|right]; auto.
  apply abs_B2R_ge_emin. auto.
Qed.

Lemma not_eqb_zero : forall x : fl, @reqb F x (@r0 F) = false -> is_zero prec emax x = false.
Proof. intros [[]|[]| |[]] H; simpl in *; auto; discriminate. Qed.

Lemma max_abs_sign : forall x y : fl, Bsign (@std_max F (@rabs F x) (@rabs F y)) = false.
Proof. intros. unfold std_max. destruct (@rltb F (@rabs F x) (@rabs F y)); simpl; apply Bsign_Babs. Qed.

Lemma scale_down_fuel : forall n k count f g, (emin <= k - Z.of_nat (S n) * e)%Z -> (k <= emax)%Z ->
  (k - Z.of_nat (S n) * e < e)%Z -> below k f -> below k g ->
  exists x, forall fuel, (S n <= fuel)%nat -> @scale_down F sm fuel count f g = Some x.
Proof.
  induction n; intros k count f g H1 H2 H3 Bf Bg.
  - eexists. intros fuel Hf. destruct fuel as [|fuel]; [lia|]. cbn [scale_down].
    rewrite below_stops with (k := (k - e)%Z); [reflexivity|lia|].
    apply below_max; apply below_abs; apply below_mul; auto; lia.
  - set (f1 := @rmul F f sm). set (g1 := @rmul F g sm).
    assert (below (k - e) f1) by (apply below_mul; auto; lia).
    assert (below (k - e) g1) by (apply below_mul; auto; lia).
    destruct (@rleb F (@safmx2 F sm) (@std_max F (@rabs F f1) (@rabs F g1))) eqn:E.
    + destruct (IHn (k - e)%Z (S count) f1 g1) as (x & Hx); auto; try lia.
      exists x. intros fuel Hf. destruct fuel as [|fuel]; [lia|]. cbn [scale_down]. fold f1 g1.
      rewrite E. apply Hx; lia.
    + eexists. intros fuel Hf. destruct fuel as [|fuel]; [lia|]. cbn [scale_down]. fold f1 g1.
      rewrite E. reflexivity.
Qed.

Lemma scale_up_fuel : forall n k count f g, (emin <= k)%Z ->
  (- e < k + Z.of_nat (S n) * e)%Z -> above k f -> above k g ->
  exists x, forall fuel, (S n <= fuel)%nat -> @scale_up F sm fuel count f g = Some x.
Proof.
  induction n; intros k count f g H1 H2 Bf Bg.
  - eexists. intros fuel Hf. destruct fuel as [|fuel]; [lia|]. cbn [scale_up].
    rewrite above_stops with (k := (k + e)%Z); [reflexivity|lia| |apply max_abs_sign].
    apply above_max; apply above_abs; apply above_mul; auto; lia.
  - set (f1 := @rmul F f (@safmx2 F sm)). set (g1 := @rmul F g (@safmx2 F sm)).
    assert (above (k + e) f1) by (apply above_mul; auto; lia).
    assert (above (k + e) g1) by (apply above_mul; auto; lia).
    destruct (@rleb F (@std_max F (@rabs F f1) (@rabs F g1)) sm) eqn:E.
    + destruct (IHn (k + e)%Z (S count) f1 g1) as (x & Hx); auto; try lia.
      exists x. intros fuel Hf. destruct fuel as [|fuel]; [lia|]. cbn [scale_up]. fold f1 g1.
      rewrite E. apply Hx; lia.
    + eexists. intros fuel Hf. destruct fuel as [|fuel]; [lia|]. cbn [scale_up]. fold f1 g1.
      rewrite E. reflexivity.
Qed.

Lemma real_ends : forall f g : fl, is_inf prec emax f = false -> is_inf prec emax g = false ->
  exists x, forall fuel, (3 <= fuel)%nat -> @setup_givens_rotation F sm fuel f g = Some x.
Proof.
  intros f g If Ig. unfold setup_givens_rotation.
  destruct (@reqb F g (@r0 F)) eqn:Zg; [eexists; reflexivity|].
  destruct (@reqb F f (@r0 F)) eqn:Zf; [eexists; reflexivity|].
  assert (S : exists x, forall fuel, (3 <= fuel)%nat -> @scaled_rotation F sm fuel f g = Some x).
  { unfold scaled_rotation.
    destruct (@rleb F (@safmx2 F sm) (@std_max F (@rabs F f) (@rabs F g))).
    - pose proof emin_neg. pose proof (prec_lt_emax prec emax). pose proof emin_val. unfold Prec_gt_0 in Hp.
      destruct (scale_down_fuel 2 emax 0 f g) as (((c, f1), g1) & Hx);
        try (apply below_start; auto); try lia.
      destruct (@plain_rotation F f1 g1) as [[cs sn] r] eqn:Ep.
      eexists. intros fuel Hf. rewrite Hx, Ep by auto. reflexivity.
    - destruct (@rleb F (@std_max F (@rabs F f) (@rabs F g)) sm).
      + destruct (scale_up_fuel 2 emin 0 f g) as (((c, f1), g1) & Hx);
          try (apply above_start, not_eqb_zero; auto); try lia.
        destruct (@plain_rotation F f1 g1) as [[cs sn] r] eqn:Ep.
        eexists. intros fuel Hf. rewrite Hx, Ep by auto. reflexivity.
      + eexists. reflexivity. }
  destruct S as (((cs, sn), r) & HS).
  destruct (@rltb F (@rabs F g) (@rabs F f) && @rltb F cs (@r0 F))%bool eqn:Eb;
    eexists; intros fuel Hf; rewrite HS, Eb by auto; reflexivity.
Qed.

(** * Complex arguments *)

Lemma label10_fuel : forall n k count fs gs sc, (emin <= k - Z.of_nat (S n) * e)%Z -> (k <= emax)%Z ->
  (k - Z.of_nat (S n) * e < e)%Z -> below k sc ->
  exists x, forall fuel, (S n <= fuel)%nat -> @label10 F sm fuel count fs gs sc = Some x.
Proof.
  induction n; intros k count fs gs sc H1 H2 H3 B.
  - eexists. intros fuel Hf. destruct fuel as [|fuel]; [lia|]. cbn [label10].
    rewrite below_stops with (k := (k - e)%Z); [reflexivity|lia|]. apply below_mul; auto; lia.
  - set (s1 := @rmul F sc sm).
    assert (below (k - e) s1) by (apply below_mul; auto; lia).
    destruct (@rleb F (@safmx2 F sm) s1) eqn:E.
    + destruct (IHn (k - e)%Z (count + 1)%Z (@cscale F fs sm) (@cscale F gs sm) s1) as (x & Hx); auto; try lia.
      exists x. intros fuel Hf. destruct fuel as [|fuel]; [lia|]. cbn [label10]. fold s1.
      rewrite E. apply Hx; lia.
    + eexists. intros fuel Hf. destruct fuel as [|fuel]; [lia|]. cbn [label10]. fold s1.
      rewrite E. reflexivity.
Qed.

Lemma mx_sign : Bsign (@safmx2 F sm) = false.
Proof.
  destruct mx_spec as (M1 & M2). pose proof (bpow_gt_0 radix2 e).
  change (rcar (fbase F)) with fl in *.
  destruct (@safmx2 F sm) as [s|s| |s m ex Hx]; simpl in *; try discriminate; try lra.
  destruct s; auto. exfalso.
  assert (F2R (Float radix2 (Z.neg m) ex) < 0) by (apply F2R_lt_0; reflexivity). simpl in *. lra.
Qed.

Lemma sign_mul : forall x : fl, Bsign x = false -> Bsign (@rmul F x (@safmx2 F sm) : fl) = false.
Proof.
  intros x S. pose proof mx_sign as MS. destruct mx_spec as (M1 & M2).
  change (@rmul F) with (@Bmult prec emax Hp He mode_NE).
  pose proof (Bmult_correct prec emax Hp He mode_NE x (@safmx2 F sm)) as C.
  match type of C with (if Rlt_bool ?u ?v then _ else _) => destruct (Rlt_bool_spec u v) end.
  - destruct C as (_ & _ & C).
    destruct (is_nan (@Bmult prec emax Hp He mode_NE x (@safmx2 F sm))) eqn:N.
    + destruct (@Bmult prec emax Hp He mode_NE x (@safmx2 F sm)); try discriminate. reflexivity.
    + rewrite C by auto. rewrite S, MS. reflexivity.
  - rewrite S, MS in C. simpl in C. unfold binary_overflow in C. simpl in C.
    destruct (@Bmult prec emax Hp He mode_NE x (@safmx2 F sm)) as [s|s| |s m ex Hx]; simpl in C; try discriminate.
    injection C as ->. reflexivity.
Qed.

Lemma label20_fuel : forall n k count fs gs sc, (emin <= k)%Z ->
  (- e < k + Z.of_nat (S n) * e)%Z -> above k sc -> Bsign sc = false ->
  exists x, forall fuel, (S n <= fuel)%nat -> @label20 F sm fuel count fs gs sc = Some x.
Proof.
  induction n; intros k count fs gs sc H1 H2 B S.
  - eexists. intros fuel Hf. destruct fuel as [|fuel]; [lia|]. cbn [label20].
    rewrite above_stops with (k := (k + e)%Z); [reflexivity|lia| |apply sign_mul; auto].
    apply above_mul; auto; lia.
  - set (s1 := @rmul F sc (@safmx2 F sm)).
    assert (above (k + e) s1) by (apply above_mul; auto; lia).
    assert (Bsign (s1 : fl) = false) by (apply sign_mul; auto).
    destruct (@rleb F s1 sm) eqn:E.
    + destruct (IHn (k + e)%Z (count - 1)%Z (@cscale F fs (@safmx2 F sm)) (@cscale F gs (@safmx2 F sm)) s1) as (x & Hx); auto; try lia.
      exists x. intros fuel Hf. destruct fuel as [|fuel]; [lia|]. cbn [label20]. fold s1.
      rewrite E. apply Hx; lia.
    + eexists. intros fuel Hf. destruct fuel as [|fuel]; [lia|]. cbn [label20]. fold s1.
      rewrite E. reflexivity.
Qed.

Definition hypot_nan : Prop := forall x y : fl, is_nan x = true \/ is_nan y = true ->
  is_inf prec emax x = false -> is_inf prec emax y = false -> is_nan (hypot x y) = true.
Definition no_inf (z : fl * fl) : Prop := is_inf prec emax (fst z) = false /\ is_inf prec emax (snd z) = false.

Lemma abs1_above : forall z : fl * fl, @ciszero F z = false ->
  is_nan (fst z) = false -> is_nan (snd z) = false -> above emin (@abs1 F z).
Proof.
  intros [x y] Z N1 N2. unfold abs1, ciszero in *. simpl fst in *. simpl snd in *.
  unfold std_max. destruct (is_zero prec emax x) eqn:Zx.
  - destruct x as [sx| | |]; try discriminate.
    assert (Zy : is_zero prec emax y = false).
    { destruct y; auto; discriminate. }
    pose proof (above_start y Zy). destruct (@rltb F (@rabs F (B754_zero sx : fl)) (@rabs F y)) eqn:L.
    + apply above_abs; auto.
    + exfalso. destruct y as [s|s| |s m ex Hx]; simpl in *; try discriminate.
  - pose proof (above_start x Zx) as Ax. apply above_abs in Ax.
    destruct (@rltb F (@rabs F x) (@rabs F y)) eqn:L; auto.
    destruct (is_zero prec emax y) eqn:Zy.
    + exfalso. destruct y as [s| | |]; try discriminate. destruct x as [sx|sx| |sx m ex Hx]; simpl in *; discriminate.
    + apply above_abs. apply above_start; auto.
Qed.

Lemma abs1_sign : forall z : fl * fl, Bsign (@abs1 F z : fl) = false.
Proof. intros. apply max_abs_sign. Qed.

(** std_max of two nonnegative values is above 2^k as soon as the second is above and not NaN. *)
Lemma max_above_r : forall k (x y : fl), is_nan y = false -> Bsign x = false -> Bsign y = false ->
  above k y -> above k (@std_max F x y).
Proof.
  intros k x y Ny Sx Sy Ay. unfold std_max. destruct (@rltb F x y) eqn:L; auto.
  destruct (is_finite x) eqn:Fx; [|left; auto]. destruct (is_finite y) eqn:Fy.
  - simpl in L. rewrite Bltb_correct in L by auto.
    destruct (Rlt_bool_spec (B2R x) (B2R y)) as [|Lr]; [discriminate|].
    destruct Ay as [|Ay]; [congruence|]. right.
    apply Rle_trans with (1 := Ay). rewrite !Rabs_pos_eq; auto.
    + destruct x as [[]|[]| |[]]; simpl in *; try discriminate; try lra. apply F2R_ge_0; simpl; lia.
    + destruct y as [[]|[]| |[]]; simpl in *; try discriminate; try lra. apply F2R_ge_0; simpl; lia.
  - exfalso. destruct y as [[]|[]| |[]]; simpl in *; try discriminate; destruct x as [[]|[]| |[]]; simpl in *; discriminate.
Qed.

Lemma abs1_below : forall z : fl * fl, no_inf z -> below emax (@abs1 F z).
Proof. intros z (A & B). unfold abs1. apply below_max; apply below_abs; apply below_start; auto. Qed.

Lemma abs1_not_nan : forall z : fl * fl, is_nan (fst z) = false -> is_nan (snd z) = false ->
  is_nan (@abs1 F z : fl) = false.
Proof.
  intros z A B. unfold abs1, std_max.
  match goal with |- context [if ?b then _ else _] => destruct b end;
    [exact (eq_trans (is_nan_Babs prec emax (snd z)) B)|exact (eq_trans (is_nan_Babs prec emax (fst z)) A)].
Qed.

Variable mi : fl.
Lemma complex_ends : hypot_nan -> forall f g : fl * fl, no_inf f -> no_inf g ->
  exists x, forall fuel, (3 <= fuel)%nat -> @setup_givens_rotation_complex F mi sm fuel f g = Some x.
Proof.
  intros HN f g If Ig. unfold setup_givens_rotation_complex.
  set (scale := @std_max F (@abs1 F f) (@abs1 F g)).
  destruct (@rleb F (@safmx2 F sm) scale).
  - pose proof emin_neg. pose proof (prec_lt_emax prec emax). pose proof emin_val. unfold Prec_gt_0 in Hp.
    destruct (label10_fuel 2 emax 0 f g scale) as (((c, f1), g1) & Hx); try lia.
    { apply below_max; apply abs1_below; auto. }
    eexists. intros fuel Hf. rewrite Hx by auto. reflexivity.
  - destruct (@rleb F scale sm); [|eexists; reflexivity].
    destruct (@ciszero F g) eqn:Zg; [eexists; reflexivity|].
    match goal with |- context [orb false ?b] => destruct b eqn:Ng end; [eexists; reflexivity|].
    assert (N : is_nan (fst g : fl) = false /\ is_nan (snd g : fl) = false).
    { destruct Ig as (I1 & I2). simpl in Ng.
      destruct (is_nan (fst g : fl)) eqn:N1; [rewrite HN in Ng; auto; discriminate|].
      destruct (is_nan (snd g : fl)) eqn:N2; [rewrite HN in Ng; auto; discriminate|]. auto. }
    destruct N as (N1 & N2).
    destruct (label20_fuel 2 emin 0 f g scale) as (((c, f1), g1) & Hx); try lia.
    { apply max_above_r; try apply abs1_sign; [apply abs1_not_nan; auto|]. apply abs1_above; auto. }
    { unfold scale, std_max. destruct (@rltb F (@abs1 F f) (@abs1 F g)); apply abs1_sign. }
    eexists. intros fuel Hf. simpl orb. rewrite Hx by auto. reflexivity.
Qed.

(** * Infinite arguments: the loops never end *)

Lemma inf_mul : forall x : fl, is_inf prec emax x = true -> is_inf prec emax (@rmul F x sm) = true.
Proof.
  intros x H. pose proof (bpow_gt_0 radix2 (- e)).
  destruct x; try discriminate. simpl. destruct sm; simpl in *; try lra; auto.
Qed.
Lemma fin_mul : forall x : fl, is_nan x = false -> is_nan (@rmul F x sm : fl) = false.
Proof.
  intros x H. destruct (is_inf prec emax x) eqn:I.
  - apply inf_mul in I. destruct (@rmul F x sm : fl); auto; discriminate.
  - pose proof (Bmult_correct prec emax Hp He mode_NE x sm) as C. simpl.
    match type of C with (if Rlt_bool ?u ?v then _ else _) => destruct (Rlt_bool_spec u v) end.
    + destruct C as (_ & C & _). assert (is_finite x = true) by (destruct x; auto; discriminate).
      rewrite H1, sm_fin in C. destruct (Bmult _ x sm); auto; discriminate.
    + destruct (Bmult mode_NE x sm); auto. simpl in C. unfold binary_overflow in C. discriminate.
Qed.

(** The maximum of the two magnitudes is infinite. *)
Definition big (f g : fl) : Prop :=
  is_inf prec emax f = true \/ (is_inf prec emax g = true /\ is_nan f = false).
Lemma big_mul : forall f g, big f g -> big (@rmul F f sm) (@rmul F g sm).
Proof. intros f g [H|(H & H')]; [left|right]; try split; try (apply inf_mul; auto). apply fin_mul; auto. Qed.
Lemma big_max : forall f g, big f g -> @std_max F (@rabs F f) (@rabs F g) = (B754_infinity false : fl).
Proof.
  intros f g H. unfold std_max. destruct H as [H|(H & H')].
  - destruct f; try discriminate. simpl. destruct g as [|[]| |]; reflexivity.
  - destruct g; try discriminate. destruct f as [|[]| |]; try discriminate; reflexivity.
Qed.
Lemma mx_le_inf : @rleb F (@safmx2 F sm) (B754_infinity false : fl) = true.
Proof.
  destruct mx_spec as (M1 & M2). pose proof (bpow_gt_0 radix2 e). simpl.
  change (rcar (fbase F)) with fl in *.
  destruct (@safmx2 F sm) as [s|s| |s m ex Hx]; simpl in *; try discriminate; try lra. reflexivity.
Qed.

Lemma scale_down_never : forall fuel count f g, big f g -> @scale_down F sm fuel count f g = None.
Proof.
  induction fuel; intros; auto. cbn [scale_down]. rewrite big_max by (apply big_mul; auto).
  rewrite mx_le_inf. apply IHfuel. apply big_mul; auto.
Qed.

Lemma real_never : forall f g : fl, is_zero prec emax f = false -> is_zero prec emax g = false -> big f g ->
  forall fuel, @setup_givens_rotation F sm fuel f g = None.
Proof.
  intros f g Zf Zg B fuel. unfold setup_givens_rotation.
  assert (reqb_nz : forall x : fl, is_zero prec emax x = false -> @reqb F x (@r0 F) = false).
  { intros [[]|[]| |[]] H; simpl in *; auto; discriminate. }
  rewrite (reqb_nz g), (reqb_nz f) by auto. unfold scaled_rotation.
  rewrite big_max, mx_le_inf, scale_down_never by auto. reflexivity.
Qed.

Lemma label10_never : forall fuel count fs gs, @label10 F sm fuel count fs gs (B754_infinity false : fl) = None.
Proof.
  induction fuel; intros; auto. cbn [label10].
  replace (@rmul F (B754_infinity false : fl) sm) with (B754_infinity false : fl).
  - rewrite mx_le_inf. apply IHfuel.
  - pose proof (bpow_gt_0 radix2 (- e)). simpl. destruct sm as [s|s| |s m ex Hx]; simpl in *; try lra.
    destruct s; auto. exfalso.
    assert (F2R (Float radix2 (Z.neg m) ex) < 0) by (apply F2R_lt_0; reflexivity). simpl in *. lra.
Qed.

Lemma complex_never : forall f g : fl * fl, big (fst f) (snd f) ->
  forall fuel, @setup_givens_rotation_complex F mi sm fuel f g = None.
Proof.
  intros f g B fuel. unfold setup_givens_rotation_complex.
  assert (E : @std_max F (@abs1 F f) (@abs1 F g) = (B754_infinity false : fl)).
  { unfold abs1 at 1. rewrite big_max by auto. unfold std_max at 1. simpl.
    destruct (@abs1 F g : fl) as [|[]| |]; reflexivity. }
  rewrite E, mx_le_inf, label10_never. reflexivity.
Qed.

End Term.

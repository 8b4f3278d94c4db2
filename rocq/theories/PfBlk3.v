(** In IEEE-754 arithmetic the factor -1 turns an update that adds into one that subtracts. *)
From Coq Require Import ZArith Reals Bool Psatz.
From Flocq Require Import Core BinarySingleNaN.
From Verif Require Import Mem Scalar View Spec Norm Ieee SpecBlk PfBlk.
Set Implicit Arguments.

Section Neg.
Variables prec emax : Z.
Context (Hp : Prec_gt_0 prec) (He : Prec_lt_emax prec emax).
Notation fl := (binary_float prec emax).
Let fexp := SpecFloat.fexp prec emax.

Lemma mult_finite_eq : forall u v u' v' : fl, is_finite u = true -> is_finite v = true -> is_finite u' = true -> is_finite v' = true ->
  (B2R u' * B2R v' = - (B2R u * B2R v))%R -> xorb (Bsign u') (Bsign v') = negb (xorb (Bsign u) (Bsign v)) ->
  Bmult mode_NE u' v' = Bopp (Bmult mode_NE u v).
Proof.
  intros u v u' v' F1 F2 F3 F4 E S.
  pose proof (Bmult_correct prec emax Hp He mode_NE u v) as H1. pose proof (Bmult_correct prec emax Hp He mode_NE u' v') as H2.
  rewrite E in H2. simpl round_mode in H1, H2. rewrite round_NE_opp, Rabs_Ropp in H2.
  destruct (Rlt_bool _ _).
  - destruct H1 as (A1 & A2 & A3). destruct H2 as (B1 & B2 & B3). rewrite F1, F2 in A2. rewrite F3, F4 in B2. simpl in A2, B2.
    apply B2R_Bsign_inj; auto.
    + rewrite is_finite_Bopp; auto.
    + rewrite B2R_Bopp, A1, B1. reflexivity.
    + rewrite Bsign_Bopp by (destruct (Bmult mode_NE u v); auto; discriminate).
      rewrite A3 by (destruct (Bmult mode_NE u v); auto; discriminate).
      rewrite B3 by (destruct (Bmult mode_NE u' v'); auto; discriminate). exact S.
  - rewrite S in H2. apply B2SF_inj. rewrite H2. destruct (Bmult mode_NE u v) as [s|s| |s mm e B]; simpl in *; try discriminate.
    unfold binary_overflow in H1. simpl in H1. injection H1 as <-. reflexivity.
Qed.
Lemma mult_opp_l : forall u v : fl, Bmult mode_NE (Bopp u) v = Bopp (Bmult mode_NE u v).
Proof.
  intros u v. destruct (is_finite u) eqn:F1; [destruct (is_finite v) eqn:F2|].
  - apply mult_finite_eq; auto.
    + rewrite is_finite_Bopp; auto.
    + rewrite B2R_Bopp. ring.
    + rewrite Bsign_Bopp by (destruct u; auto; discriminate). destruct (Bsign u), (Bsign v); reflexivity.
  - destruct u, v; try discriminate; simpl; auto; f_equal; try (destruct s; destruct s0; reflexivity).
  - destruct u, v; try discriminate; simpl; auto; f_equal; try (destruct s; destruct s0; reflexivity).
Qed.
Lemma mult_one : forall a : fl, Bmult mode_NE (Bone (prec_gt_0_ := Hp) (prec_lt_emax_ := He)) a = a.
Proof.
  intros a. pose proof (is_finite_Bone prec emax Hp He) as F. pose proof (Bsign_Bone prec emax Hp He) as S.
  destruct (is_finite a) eqn:Fa.
  - pose proof (Bmult_correct prec emax Hp He mode_NE (Bone (prec_gt_0_ := Hp) (prec_lt_emax_ := He)) a) as H.
    rewrite Bone_correct, Rmult_1_l in H. rewrite round_generic in H; [|apply valid_rnd_round_mode|apply generic_format_B2R].
    rewrite Rlt_bool_true in H by apply abs_B2R_lt_emax. destruct H as (H1 & H2 & H3). rewrite F, Fa in H2. simpl in H2.
    apply B2R_Bsign_inj; auto. rewrite H3 by (destruct (Bmult mode_NE _ a); auto; discriminate). rewrite S. destruct (Bsign a); reflexivity.
  - pose proof (is_finite_strict_Bone prec emax Hp He) as G.
    destruct (Bone (prec_gt_0_ := Hp) (prec_lt_emax_ := He)) as [s|s| |s mm e B]; try discriminate. simpl in S. subst s.
    destruct a as [s|s| |s ? ? ?]; try discriminate; simpl; auto; destruct s; reflexivity.
Qed.
Lemma ieee_negates : @negates (@ieee_ops prec emax Hp He) (Bopp (Bone (prec_gt_0_ := Hp) (prec_lt_emax_ := He))).
Proof.
  intros b a x. simpl. rewrite mult_opp_l, mult_one, mult_opp_l.
  destruct b, (Bmult mode_NE a x); try reflexivity.
Qed.
End Neg.

Lemma ring_negates : forall O : ops, ring_laws O -> @negates O (sub zero one).
Proof.
  intros O R b a x. pose proof (ring_add R) as RA. set (n := (zero - one)%sc). set (w := ((n * a) * x)%sc). set (v := (a * x)%sc).
  assert (V : (v + w = zero)%sc).
  { unfold v, w. rewrite <- (mul_add_r R). replace (a + n * a)%sc with (zero : O); [apply (mul_0_l R)|].
    transitivity ((n + one) * a)%sc; [unfold n; rewrite (sub_add R); symmetry; apply (mul_0_l R)|].
    rewrite (mul_add_r R), (mul_1_l R). apply (add_comm RA). }
  rewrite <- (sub_add R b v) at 1. rewrite <- (add_assoc RA), V, (add_comm RA). apply (add_0_l RA).
Qed.

Section Sums.
Context {O : ops} {F : rops} (M : mags O F).
Lemma blk_abs_sum : forall (x : vec O) init k, k <= vext x ->
  same_effect (vector_abs_sum M x init) (bind (vector_abs_sum M (sub_v x 0 k) init) (fun s => vector_abs_sum M (sub_v x k (vext x - k)) s)).
Proof.
  intros x init k H. unfold vector_abs_sum. destruct (arithmetic M);
    (eapply se_trans; [apply (@se_fold_split _ _ k); lia|]; apply se_bind; [|intros s]; apply se_fold; intros i s0 _ Hi; cbn [vext sub_v] in Hi;
     rewrite ?vget_sub by (simpl; lia); apply se_refl).
Qed.
Lemma ssq_fold : forall (x : vec O) init, same_effect (vector_sum_of_squares M x init) (fold_range 0 (vext x) (ssq_step M x) init).
Proof. intros x init. unfold vector_sum_of_squares. destruct (Nat.eqb_spec (vext x) 0) as [->|]; apply se_refl. Qed.
Lemma blk_ssq : forall (x : vec O) init k, k <= vext x ->
  same_effect (vector_sum_of_squares M x init)
    (bind (vector_sum_of_squares M (sub_v x 0 k) init) (fun s => vector_sum_of_squares M (sub_v x k (vext x - k)) s)).
Proof.
  intros x init k H. eapply se_trans; [apply ssq_fold|]. eapply se_trans; [apply (@se_fold_split _ _ k); lia|].
  apply se_bind; [|intros s]; (eapply se_trans; [|intros m; symmetry; apply ssq_fold]); apply se_fold; intros i s0 _ Hi; cbn [vext sub_v] in Hi;
    unfold ssq_step; rewrite ?vget_sub by (simpl; lia); apply se_refl.
Qed.
End Sums.

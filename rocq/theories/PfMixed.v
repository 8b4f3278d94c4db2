(** Mixed precision: conversion is exact; accumulation in the wide type. *)
From Coq Require Import List ZArith Reals Lia Lra Psatz Bool.
From Flocq Require Import Core.Core IEEE754.BinarySingleNaN.
From Verif Require Import Mem Scalar View Spec SpecR SpecF Norm Ieee Mixed Blas1 Wp Sums PfBlas1 PfNorm PfIeee PfIeeeSum PfIeeeNorm.
Local Open Scope R_scope.

Section Mixed.
Variables prec emax prec' emax' : Z.
Context (Hp : Prec_gt_0 prec) (He : Prec_lt_emax prec emax) (Hp' : Prec_gt_0 prec') (He' : Prec_lt_emax prec' emax').
Hypothesis Np : (prec <= prec')%Z.
Hypothesis Ne : (emax <= emax')%Z.
Notation narrow := (binary_float prec emax).
Notation wide := (binary_float prec' emax').
Notation widen := (widen prec emax prec' emax' Hp' He').
Notation fexp := (FLT_exp (3 - emax - prec) prec).
Notation fexp' := (FLT_exp (3 - emax' - prec') prec').

Lemma format_incl : forall x, generic_format radix2 fexp x -> generic_format radix2 fexp' x.
Proof.
  intros x Hx. apply generic_inclusion_mag with fexp; auto. intros _. unfold FLT_exp. lia.
Qed.
Lemma widen_ok : forall x : narrow, is_finite (widen x) = is_finite x /\ (is_finite x = true -> B2R (widen x) = B2R x) /\
  is_nan (widen x) = is_nan x /\ (is_nan x = false -> Bsign (widen x) = Bsign x).
Proof.
  intros [s|s| |s m e Hb]; cbn [Mixed.widen]; try (repeat split; auto; fail).
  set (X := B754_finite s m e Hb : narrow).
  assert (Ex : F2R (Float radix2 (cond_Zopp s (Zpos m)) e) = B2R X) by reflexivity.
  pose proof (binary_normalize_correct prec' emax' Hp' He' mode_NE (cond_Zopp s (Zpos m)) e s) as K. cbv zeta in K.
  rewrite Ex in K. rewrite round_generic in K; [|apply valid_rnd_N|apply format_incl; apply (generic_format_B2R prec emax)].
  rewrite Rlt_bool_true in K.
  - destruct K as (K1 & K2 & K3). rewrite K2. split; [reflexivity|]. split; [auto|]. split.
    + clear K3. destruct (binary_normalize _ _ _ _ _ _ _ _); simpl in *; congruence.
    + intros _. rewrite K3, <- Ex. destruct s; [rewrite Rcompare_Lt by (apply F2R_lt_0; reflexivity)|rewrite Rcompare_Gt by (apply F2R_gt_0; reflexivity)]; reflexivity.
  - apply Rlt_le_trans with (bpow radix2 emax); [apply (abs_B2R_lt_emax prec emax X)|apply bpow_le; auto].
Qed.

Lemma sum_mixed : forall (s : wide) (h : nat -> narrow) n lo,
  @sum_from (mixed_ops prec emax prec' emax' Hp He Hp' He') (Wide s) lo n (fun k => Narrow (h k)) =
  Wide (fold_left (fun a k => Bplus mode_NE a (widen (h k))) (seq lo n) s).
Proof.
  intros s h n. revert s. induction n; intros; [reflexivity|]. unfold sum_from in *. simpl. rewrite <- IHn. reflexivity.
Qed.

Lemma rsum_ext' : forall n f g, (forall i, (i < n)%nat -> f i = g i) -> rsum n f = rsum n g.
Proof. induction n; simpl; intros; auto. rewrite (IHn f g), (H n); auto. Qed.
Lemma rsum_le' : forall n f g, (forall i, (i < n)%nat -> f i <= g i) -> rsum n f <= rsum n g.
Proof. induction n; simpl; intros; [lra|]. pose proof (IHn f g ltac:(auto)). pose proof (H n ltac:(auto)). lra. Qed.
Lemma rsum_plus' : forall n f g, rsum n (fun k => f k + g k) = rsum n f + rsum n g.
Proof. induction n; simpl; intros; [lra|]. rewrite IHn. lra. Qed.
Lemma rsum_scal' : forall n c f, rsum n (fun k => c * f k) = c * rsum n f.
Proof. induction n; simpl; intros; [lra|]. rewrite IHn. lra. Qed.
Lemma rsum_const' : forall n c, rsum n (fun _ => c) = INR n * c.
Proof. induction n; intros; [simpl; lra|]. rewrite S_INR. simpl rsum. rewrite IHn. lra. Qed.

Lemma dot_mixed : forall (m : mem (mixed_ops prec emax prec' emax' Hp He Hp' He')) x y (f g : nat -> narrow) (s : wide),
  vext x = vext y -> vec_holds m x (fun i => Narrow (f i)) -> vec_holds m y (fun i => Narrow (g i)) ->
  returns (dot x y (Wide s)) m (fun r => exists w : wide, r = Wide w /\
    let n := vext x in
    let M := rsum n (fun k => Rabs (B2R (f k)) * Rabs (B2R (g k))) in
    (is_finite w = true ->
       is_finite s = true /\ all_finite n f /\ all_finite n g /\
       Rabs (B2R w - (B2R s + rsum n (fun k => B2R (f k) * B2R (g k))))
       <= gam prec' n * Rabs (B2R s) + ((1 + unit_roundoff prec') ^ n * (1 + unit_roundoff prec) - 1) * M
          + INR n * half_tiny prec emax * (1 + unit_roundoff prec') ^ n)).
Proof.
  intros m x y f g s Hxy Hx Hy.
  destruct (dot_ok (O := mixed_ops prec emax prec' emax' Hp He Hp' He') (Wide s) Hxy Hx Hy) as (r & m' & Hr & E & ->).
  exists r. split; [exact Hr|]. rewrite E. cbn [mul mixed_ops arith].
  rewrite (sum_mixed s (fun k => Bmult mode_NE (f k) (g k))). eexists. split; [reflexivity|]. cbv zeta.
  set (h := fun k => Bmult mode_NE (f k) (g k)).
  set (n := vext x).
  pose proof (fsum_acc prec' emax' Hp' He' n s (fun k => widen (h k))) as [A _].
  intros Fw. destruct (A Fw) as (Fs & Fh & Eb). clear A.
  assert (Fh' : forall k, (k < n)%nat -> is_finite (h k) = true).
  { intros k Hk. destruct (widen_ok (h k)) as (W & _). rewrite <- W. apply (Fh k Hk). }
  assert (Bh : forall k, (k < n)%nat -> is_finite (f k) = true /\ is_finite (g k) = true /\
     B2R (widen (h k)) = B2R (h k) /\
     Rabs (B2R (h k) - B2R (f k) * B2R (g k)) <= unit_roundoff prec * (Rabs (B2R (f k)) * Rabs (B2R (g k))) + half_tiny prec emax).
  { intros k Hk. pose proof (Fh' k Hk) as Fk. destruct (widen_ok (h k)) as (_ & W & _).
    destruct (Bmult_fin prec emax Hp He (f k) (g k) Fk) as (F1 & F2 & e & d & E1 & E2 & _ & E3).
    split; auto. split; auto. split; auto.
    unfold h. rewrite <- Rabs_mult.
    pose proof (v_bounds prec) as (V0 & V1 & _).
    replace (B2R (Bmult mode_NE (f k) (g k)) - B2R (f k) * B2R (g k)) with (B2R (f k) * B2R (g k) * e + d) by (rewrite E3; ring).
    eapply Rle_trans; [apply Rabs_triang|]. rewrite Rabs_mult. apply Rplus_le_compat; auto.
    rewrite Rmult_comm. apply Rmult_le_compat_r; [apply Rabs_pos|]. lra. }
  split; auto. split; [intros k Hk; apply Bh; auto|]. split; [intros k Hk; apply Bh; auto|].
  set (u := unit_roundoff prec) in *. set (eta := half_tiny prec emax) in *. set (W := (1 + unit_roundoff prec') ^ n).
  set (M := rsum n (fun k => Rabs (B2R (f k)) * Rabs (B2R (g k)))) in *.
  assert (W1 : 1 <= W) by (unfold W; apply pow_ge1; auto).
  assert (S1 : rsum n (fun k => Rabs (B2R (widen (h k)))) <= (1 + u) * M + INR n * eta).
  { rewrite <- rsum_const'. unfold M. rewrite <- rsum_scal', <- rsum_plus'. apply rsum_le'. intros k Hk.
    destruct (Bh k Hk) as (_ & _ & -> & B). 
    assert (Rabs (B2R (h k)) <= Rabs (B2R (h k) - B2R (f k) * B2R (g k)) + Rabs (B2R (f k) * B2R (g k))).
    { eapply Rle_trans; [|apply Rabs_triang]. right. f_equal. ring. }
    rewrite Rabs_mult in H. lra. }
  assert (S2 : Rabs (rsum n (fun k => B2R (widen (h k))) - rsum n (fun k => B2R (f k) * B2R (g k))) <= u * M + INR n * eta).
  { replace (rsum n (fun k => B2R (widen (h k))) - rsum n (fun k => B2R (f k) * B2R (g k)))
      with (rsum n (fun k => B2R (widen (h k)) + (-1) * (B2R (f k) * B2R (g k)))) by (rewrite rsum_plus', rsum_scal'; ring).
    eapply Rle_trans; [apply rsum_abs_le|]. rewrite <- rsum_const'. unfold M. rewrite <- rsum_scal', <- rsum_plus'.
    apply rsum_le'. intros k Hk. destruct (Bh k Hk) as (_ & _ & -> & B).
    replace (B2R (h k) + -1 * (B2R (f k) * B2R (g k))) with (B2R (h k) - B2R (f k) * B2R (g k)) by ring. exact B. }
  unfold gam in *. fold W in Eb |- *. cbv beta in Eb.
  match goal with |- Rabs (?r - _) <= _ => set (R := r) in * end.
  set (T := rsum n (fun k => B2R (widen (h k)))) in *. set (T' := rsum n (fun k => B2R (f k) * B2R (g k))) in *.
  change (fold_left _ _ _) with (fsum prec' emax' Hp' He' s n (fun k => widen (h k))) in R || idtac.
  assert (Rabs (R - (B2R s + T')) <= Rabs (R - (B2R s + T)) + Rabs (T - T')).
  { eapply Rle_trans; [|apply Rabs_triang]. right. f_equal. ring. }
  assert (0 <= INR n * eta) by (apply Rmult_le_pos; [apply pos_INR|left; apply eta_pos]).
  assert (Rabs (R - (B2R s + T)) <= (W - 1) * (Rabs (B2R s) + ((1 + u) * M + INR n * eta))).
  { eapply Rle_trans; [exact Eb|]. apply Rmult_le_compat_l; [lra|]. lra. }
  nra.
Qed.

Lemma abs_sum_mixed : forall (m : mem (ieee_ops prec emax Hp He)) x (f : nat -> narrow) (init : wide), vec_holds m x f ->
  returns (vector_abs_sum (mixed_mags prec emax prec' emax' Hp He Hp' He') x init) m (fun r : wide =>
    let M := Rabs (B2R init) + rsum (vext x) (fun i => Rabs (B2R (f i))) in
    (is_finite r = true -> is_finite init = true /\ all_finite (vext x) f /\
       Rabs (B2R r - (B2R init + rsum (vext x) (fun i => Rabs (B2R (f i))))) <= gam prec' (vext x) * M) /\
    (is_finite init = true -> all_finite (vext x) f ->
       (1 + unit_roundoff prec') ^ vext x * M <= max_finite prec' emax' -> is_finite r = true)).
Proof.
  intros m x f init Hx. set (MM := mixed_mags prec emax prec' emax' Hp He Hp' He').
  destruct (@abs_sum_float prec' emax' Hp' He' _ MM m x f init eq_refl Hx) as (r & Hr & A & B).
  exists r. split; [exact Hr|]. cbv zeta. cbn [eabs MM mixed_mags] in A, B.
  assert (F : all_finite (vext x) (fun i => widen (Babs (f i))) <-> all_finite (vext x) f).
  { unfold all_finite. split; intros H i Hi; specialize (H i Hi); destruct (widen_ok (Babs (f i))) as (W & _);
      rewrite is_finite_Babs in W; congruence. }
  assert (E : all_finite (vext x) f -> forall i, (i < vext x)%nat -> B2R (widen (Babs (f i))) = Rabs (B2R (f i))).
  { intros H i Hi. destruct (widen_ok (Babs (f i))) as (_ & W & _). rewrite W; [apply B2R_Babs|]. rewrite is_finite_Babs. apply H; auto. }
  assert (E1 : all_finite (vext x) f -> rsum (vext x) (fun i => B2R (widen (Babs (f i)))) = rsum (vext x) (fun i => Rabs (B2R (f i)))).
  { intros H. apply rsum_ext'. apply E; auto. }
  assert (E2 : all_finite (vext x) f -> rsum (vext x) (fun i => Rabs (B2R (widen (Babs (f i))))) = rsum (vext x) (fun i => Rabs (B2R (f i)))).
  { intros H. apply rsum_ext'. intros i Hi. rewrite (E H i Hi). apply Rabs_Rabsolu. }
  split.
  - intros Fr. destruct (A Fr) as (A1 & A2 & A3). apply F in A2. rewrite (E1 A2), (E2 A2) in A3. auto.
  - intros Fi Ff Hm. apply B; auto. apply F; auto. rewrite (E2 Ff). exact Hm.
Qed.

Lemma two_norm_mixed : forall (m : mem (ieee_ops prec emax Hp He)) x (f : nat -> narrow), vec_holds m x f -> all_finite (vext x) f ->
  (1 + INR (vext x)) * (1 + unit_roundoff prec') ^ vext x <= max_finite prec' emax' ->
  returns (vector_two_norm_noinit (mixed_mags prec emax prec' emax' Hp He Hp' He') x) m (fun r : wide =>
    let T := sqrt (rsum (vext x) (fun i => B2R (f i) * B2R (f i))) in
    let eps := ssq_err prec' emax' (vext x) 1 in
    ((1 + eps) * (1 + unit_roundoff prec') ^ 2 * T + half_tiny prec' emax' <= max_finite prec' emax' -> is_finite r = true) /\
    (is_finite r = true -> Rabs (B2R r - T) <= ((1 + eps) * (1 + unit_roundoff prec') ^ 2 - 1) * T + half_tiny prec' emax')).
Proof.
  intros m x f Hx Ff Hn. set (MM := mixed_mags prec emax prec' emax' Hp He Hp' He').
  assert (E : forall i, (i < vext x)%nat -> is_finite (widen (Babs (f i))) = true /\ B2R (widen (Babs (f i))) = Rabs (B2R (f i))).
  { intros i Hi. destruct (widen_ok (Babs (f i))) as (W1 & W & _). rewrite W1, is_finite_Babs. split; [apply Ff; auto|].
    rewrite W; [apply B2R_Babs|]. rewrite is_finite_Babs. apply Ff; auto. }
  destruct (@two_norm_float prec' emax' Hp' He' _ MM m x f Hx) as (r & Hr & A); auto.
  { intros i Hi. destruct (E i Hi) as (E1 & E2). split; [exact E1|]. cbn [eabs MM mixed_mags]. rewrite E2. apply Rabs_pos. }
  exists r. split; [exact Hr|].
  assert (ES : rsum (vext x) (fun i => fmag MM (f i) * fmag MM (f i)) = rsum (vext x) (fun i => B2R (f i) * B2R (f i))).
  { apply rsum_ext'. intros i Hi. unfold fmag. cbn [eabs MM mixed_mags]. destruct (E i Hi) as (_ & ->).
    rewrite <- Rabs_mult. apply Rabs_pos_eq. nra. }
  cbv zeta in *. rewrite ES in A. exact A.
Qed.
End Mixed.

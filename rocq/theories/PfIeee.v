(** Rounding errors of IEEE operations and of sums of products. *)
From Coq Require Import List ZArith Reals Lia Lra Psatz Bool.
From Flocq Require Import Core.Core IEEE754.BinarySingleNaN Relative Plus_error.
From Verif Require Import Mem Scalar View Spec SpecR SpecF Norm Ieee Wp Sums.
Local Open Scope R_scope.

Section Ieee.
Variables prec emax : Z.
Context (Hp : Prec_gt_0 prec) (He : Prec_lt_emax prec emax).
Notation fl := (binary_float prec emax).
Notation fexp := (FLT_exp (3 - emax - prec) prec).
Notation rnd := (round radix2 fexp ZnearestE).
Notation u := (unit_roundoff prec).
Notation eta := (half_tiny prec emax).

Lemma u_ro_u : u_ro radix2 prec = u.
Proof. unfold u_ro, unit_roundoff. rewrite bpow_plus. simpl (bpow radix2 1). lra. Qed.
Lemma u_pos : 0 < u. Proof. apply bpow_gt_0. Qed.
Lemma u_le1 : u <= / 2.
Proof. unfold unit_roundoff. change (/2) with (bpow radix2 (-1)). apply bpow_le. red in Hp; lia. Qed.
Lemma eta_pos : 0 < eta. Proof. unfold half_tiny. pose proof (bpow_gt_0 radix2 (3 - emax - prec)). lra. Qed.
Definition v := u / (1 + u).
Lemma v_bounds : 0 <= v /\ v <= u /\ v < 1 /\ / (1 - v) = 1 + u.
Proof.
  pose proof u_pos. unfold v. assert (u / (1 + u) = 1 - / (1 + u)) as E by (field; lra).
  assert (0 < / (1 + u)) by (apply Rinv_0_lt_compat; lra).
  repeat split.
  - apply Rmult_le_pos; lra.
  - rewrite E. apply Rmult_le_reg_r with (1 + u); [lra|]. rewrite Rmult_minus_distr_r, Rinv_l by lra. nra.
  - lra.
  - rewrite E. replace (1 - (1 - / (1 + u))) with (/ (1 + u)) by ring. rewrite Rinv_inv; auto.
Qed.

Lemma fmt : forall x : fl, generic_format radix2 fexp (B2R x).
Proof. intros. apply (generic_format_B2R prec emax). Qed.

Lemma overflow_inf : forall (x : fl) m s, B2SF x = binary_overflow prec emax m s -> m = mode_NE -> is_finite x = false.
Proof. intros x m s H ->. unfold binary_overflow in H. simpl in H. destruct x; simpl in *; congruence. Qed.

Lemma Bplus_fin : forall x y : fl, is_finite (Bplus mode_NE x y) = true ->
  is_finite x = true /\ is_finite y = true /\
  B2R (Bplus mode_NE x y) = rnd (B2R x + B2R y) /\
  exists e, Rabs e <= v /\ B2R (Bplus mode_NE x y) = (B2R x + B2R y) * (1 + e).
Proof.
  intros x y H.
  assert (is_finite x = true /\ is_finite y = true) as [Fx Fy].
  { destruct x as [[]|[]| |], y as [[]|[]| |]; simpl in *; try discriminate; auto. }
  split; auto. split; auto. pose proof (Bplus_correct prec emax Hp He mode_NE x y Fx Fy) as K.
  destruct (Rlt_bool _ _).
  - destruct K as (K & _). simpl in K. split; [exact K|].
    destruct (FLT_plus_error_N_ex radix2 (3 - emax - prec) prec (fun z => negb (Z.even z)) (B2R x) (B2R y) (fmt x) (fmt y)) as (e & E1 & E2).
    exists e. rewrite u_ro_u in E1. split; auto. rewrite <- E2. exact K.
  - destruct K as (K & _). apply overflow_inf in K; auto. congruence.
Qed.
Lemma Bminus_fin : forall x y : fl, is_finite (Bminus mode_NE x y) = true ->
  is_finite x = true /\ is_finite y = true /\
  exists e, Rabs e <= v /\ B2R (Bminus mode_NE x y) = (B2R x - B2R y) * (1 + e).
Proof.
  intros x y H.
  assert (is_finite x = true /\ is_finite y = true) as [Fx Fy].
  { destruct x as [[]|[]| |], y as [[]|[]| |]; simpl in *; try discriminate; auto. }
  split; auto. split; auto. pose proof (Bminus_correct prec emax Hp He mode_NE x y Fx Fy) as K.
  destruct (Rlt_bool _ _).
  - destruct K as (K & _).
    destruct (FLT_plus_error_N_ex radix2 (3 - emax - prec) prec (fun z => negb (Z.even z)) (B2R x) (- B2R y) (fmt x)) as (e & E1 & E2).
    { apply generic_format_opp, fmt. }
    exists e. rewrite u_ro_u in E1. split; auto. unfold Rminus. rewrite <- E2. exact K.
  - destruct K as (K & _). apply overflow_inf in K; auto. congruence.
Qed.
Lemma rnd_ex : forall z, exists e h, Rabs e <= v /\ Rabs h <= eta /\ e * h = 0 /\ rnd z = z * (1 + e) + h.
Proof.
  intros z. destruct (relative_error_N_FLT'_ex radix2 (3 - emax - prec) prec Hp (fun z => negb (Z.even z)) z) as (e & h & K1 & K2 & K3 & K4).
  exists e, h. rewrite u_ro_u in K1. auto.
Qed.
Lemma Bmult_fin : forall x y : fl, is_finite (Bmult mode_NE x y) = true ->
  is_finite x = true /\ is_finite y = true /\
  exists e h, Rabs e <= v /\ Rabs h <= eta /\ e * h = 0 /\ B2R (Bmult mode_NE x y) = B2R x * B2R y * (1 + e) + h.
Proof.
  intros x y H.
  assert (is_finite x = true /\ is_finite y = true) as [Fx Fy].
  { destruct x as [[]|[]| |], y as [[]|[]| |]; simpl in *; try discriminate; auto. }
  split; auto. split; auto. pose proof (Bmult_correct prec emax Hp He mode_NE x y) as K.
  destruct (Rlt_bool _ _).
  - destruct K as (K & _). destruct (rnd_ex (B2R x * B2R y)) as (e & h & K1 & K2 & K3 & K4).
    exists e, h. repeat split; auto. rewrite <- K4. exact K.
  - apply overflow_inf in K; auto. congruence.
Qed.
Lemma Bdiv_fin : forall x y : fl, is_finite (Bdiv mode_NE x y) = true -> is_finite y = true ->
  is_finite x = true /\ B2R y <> 0 /\
  exists e h, Rabs e <= v /\ Rabs h <= eta /\ e * h = 0 /\ B2R (Bdiv mode_NE x y) = B2R x / B2R y * (1 + e) + h.
Proof.
  intros x y H Fy.
  assert (is_finite x = true /\ B2R y <> 0) as [Fx Ny].
  { destruct y as [[]|[]| |sy my ey By]; simpl in Fy; try discriminate.
    1,2: destruct x as [[]|[]| |]; simpl in H; discriminate.
    split; [destruct x as [[]|[]| |]; simpl in *; try discriminate; auto|].
    simpl. apply F2R_neq_0. destruct sy; discriminate. }
  split; auto. split; auto. pose proof (Bdiv_correct prec emax Hp He mode_NE x y Ny) as K.
  destruct (Rlt_bool _ _).
  - destruct K as (K & _). destruct (rnd_ex (B2R x / B2R y)) as (e & h & K1 & K2 & K3 & K4).
    exists e, h. repeat split; auto. rewrite <- K4. exact K.
  - apply overflow_inf in K; auto. congruence.
Qed.

(** No overflow *)
Lemma max_fmt : generic_format radix2 fexp (max_finite prec emax).
Proof.
  red in Hp, He. apply generic_format_FLT. exists (Float radix2 (radix2 ^ prec - 1) (emax - prec)).
  - unfold max_finite, F2R. cbn [Fnum Fexp]. rewrite minus_IZR, IZR_Zpower by lia.
    rewrite Rmult_minus_distr_r, <- bpow_plus. f_equal; [f_equal; lia|lra].
  - cbn [Fnum]. assert (0 < radix2 ^ prec)%Z by (apply Zpower_gt_0; lia). lia.
  - simpl Fexp. lia.
Qed.
Lemma max_lt : max_finite prec emax < bpow radix2 emax.
Proof. unfold max_finite. pose proof (bpow_gt_0 radix2 (emax - prec)). lra. Qed.
Lemma no_overflow : forall z, Rabs z <= max_finite prec emax -> Rlt_bool (Rabs (rnd z)) (bpow radix2 emax) = true.
Proof.
  intros z H. apply Rlt_bool_true. eapply Rle_lt_trans; [|apply max_lt].
  apply abs_round_le_generic; auto with typeclass_instances. apply max_fmt.
Qed.
Lemma Bplus_no : forall x y : fl, is_finite x = true -> is_finite y = true -> Rabs (B2R x + B2R y) <= max_finite prec emax ->
  is_finite (Bplus mode_NE x y) = true.
Proof. intros x y Fx Fy H. pose proof (Bplus_correct prec emax Hp He mode_NE x y Fx Fy) as K. simpl round_mode in K. rewrite no_overflow in K; auto. tauto. Qed.
Lemma Bminus_no : forall x y : fl, is_finite x = true -> is_finite y = true -> Rabs (B2R x - B2R y) <= max_finite prec emax ->
  is_finite (Bminus mode_NE x y) = true.
Proof. intros x y Fx Fy H. pose proof (Bminus_correct prec emax Hp He mode_NE x y Fx Fy) as K. simpl round_mode in K. rewrite no_overflow in K; auto. tauto. Qed.
Lemma Bmult_no : forall x y : fl, is_finite x = true -> is_finite y = true -> Rabs (B2R x * B2R y) <= max_finite prec emax ->
  is_finite (Bmult mode_NE x y) = true.
Proof.
  intros x y Fx Fy H. pose proof (Bmult_correct prec emax Hp He mode_NE x y) as K. simpl round_mode in K. rewrite no_overflow in K; auto.
  destruct K as (_ & -> & _). rewrite Fx, Fy; auto.
Qed.
Lemma Bdiv_no : forall x y : fl, is_finite x = true -> B2R y <> 0 -> Rabs (B2R x / B2R y) <= max_finite prec emax ->
  is_finite (Bdiv mode_NE x y) = true.
Proof.
  intros x y Fx Ny H. pose proof (Bdiv_correct prec emax Hp He mode_NE x y Ny) as K. simpl round_mode in K. rewrite no_overflow in K; auto.
  destruct K as (_ & -> & _). auto.
Qed.

(** * Sums of products *)
Notation O := (ieee_ops prec emax Hp He).
Notation bsum s n a b := (@sum_from O s 0 n (fun k => @mul O (a k) (b k))).

Lemma rsum_abs_nonneg : forall n f, 0 <= rsum n (fun k => Rabs (f k)).
Proof. induction n; intros; simpl; [lra|]. pose proof (IHn f). pose proof (Rabs_pos (f n)). lra. Qed.
Lemma rsum_abs_le : forall n f, Rabs (rsum n f) <= rsum n (fun k => Rabs (f k)).
Proof.
  induction n; intros; simpl; [rewrite Rabs_R0; lra|].
  eapply Rle_trans; [apply Rabs_triang|]. pose proof (IHn f). lra.
Qed.
Lemma pow_ge1 : forall n, 1 <= (1 + u) ^ n.
Proof. intros. apply pow_R1_Rle. pose proof u_pos; lra. Qed.
Lemma pow_mono : forall k n, (k <= n)%nat -> (1 + u) ^ k <= (1 + u) ^ n.
Proof. intros. apply Rle_pow; auto. pose proof u_pos; lra. Qed.
Lemma abs_bound : forall e b, Rabs e <= b -> - b <= e <= b.
Proof. intros e b. apply Rabs_le_inv. Qed.

(** Error after one more term. *)
Lemma step_err : forall S T x p M a E D, Rabs (S - T) <= ((1 + u) ^ E - 1) * M + D -> Rabs T <= M -> (1 <= E)%nat -> 0 <= D ->
  forall e e' h, Rabs e <= v -> Rabs e' <= v -> Rabs h <= eta -> p = x * (1 + e') + h -> a = Rabs x ->
  Rabs ((S + p) * (1 + e) - (T + x)) <= ((1 + u) ^ (E + 1) - 1) * (M + a) + ((1 + u) * D + (1 + u) * eta).
Proof.
  intros S T x p M a E D H1 H2 HE HD e e' h He1 He2 Hh -> ->.
  destruct v_bounds as (V0 & V1 & V2 & _). pose proof u_pos as U. pose proof eta_pos as ET.
  assert (HM : 0 <= M) by (pose proof (Rabs_pos T); lra).
  replace ((S + (x * (1 + e') + h)) * (1 + e) - (T + x)) with ((S - T) * (1 + e) + T * e + (x * e' + h) * (1 + e) + x * e) by ring.
  assert (A1 : Rabs (1 + e) <= 1 + u). { apply Rabs_le. apply abs_bound in He1. lra. }
  pose proof (Rabs_pos x). pose proof (Rabs_pos (S - T)).
  eapply Rle_trans; [apply Rabs_triang|]. eapply Rle_trans; [apply Rplus_le_compat_r, Rabs_triang|].
  eapply Rle_trans; [apply Rplus_le_compat_r, Rplus_le_compat_r, Rabs_triang|].
  rewrite !Rabs_mult.
  assert (B1 : Rabs (S - T) * Rabs (1 + e) <= (((1 + u) ^ E - 1) * M + D) * (1 + u)).
  { apply Rmult_le_compat; auto; apply Rabs_pos. }
  assert (B2 : Rabs T * Rabs e <= M * u).
  { apply Rmult_le_compat; auto; try apply Rabs_pos. lra. }
  assert (B3 : Rabs (x * e' + h) * Rabs (1 + e) <= (Rabs x * u + eta) * (1 + u)).
  { apply Rmult_le_compat; auto; try apply Rabs_pos. eapply Rle_trans; [apply Rabs_triang|]. rewrite Rabs_mult.
    apply Rplus_le_compat; auto. apply Rmult_le_compat_l; auto; lra. }
  assert (B4 : Rabs x * Rabs e <= Rabs x * u).
  { apply Rmult_le_compat_l; auto; lra. }
  assert (B5 : (1 + u) ^ 2 <= (1 + u) ^ (E + 1)) by (apply pow_mono; lia).
  rewrite pow_add in *. simpl in *. set (W := (1 + u) ^ E) in *.
  assert (Rabs x * ((1 + u) * ((1 + u) * 1)) <= Rabs x * (W * ((1 + u) * 1))) by (apply Rmult_le_compat_l; auto).
  nra.
Qed.

Lemma rsum_prod_le : forall n (a b : nat -> fl),
  Rabs (rsum n (fun k => B2R (a k) * B2R (b k))) <= rsum n (fun k => Rabs (B2R (a k)) * Rabs (B2R (b k))).
Proof.
  induction n; intros; simpl; [rewrite Rabs_R0; lra|].
  eapply Rle_trans; [apply Rabs_triang|]. rewrite Rabs_mult. pose proof (IHn a b). lra.
Qed.

Lemma dot_err : forall n (s : fl) (a b : nat -> fl), is_finite (bsum s n a b) = true ->
  is_finite s = true /\ all_finite n a /\ all_finite n b /\
  Rabs (B2R (bsum s n a b) - (B2R s + rsum n (fun k => B2R (a k) * B2R (b k))))
  <= gam prec (n + 1) * (Rabs (B2R s) + rsum n (fun k => Rabs (B2R (a k)) * Rabs (B2R (b k)))) + tiny prec emax n n.
Proof.
  induction n as [|n IH]; intros s a b H.
  - change (bsum s 0 a b) with s in *. repeat split; auto; try (intros i Hi; lia). simpl.
    replace (B2R s - (B2R s + 0)) with 0 by ring. rewrite Rabs_R0.
    unfold gam, tiny. simpl. pose proof u_pos. pose proof (Rabs_pos (B2R s)). nra.
  - rewrite sum_from_S in *. simpl Nat.add in *. set (S := bsum s n a b) in *.
    change (@add O) with (@Bplus prec emax _ _ mode_NE) in *. change (@mul O) with (@Bmult prec emax _ _ mode_NE) in *.
    destruct (Bplus_fin _ _ H) as (F1 & F2 & _ & e & E1 & E2).
    destruct (Bmult_fin _ _ F2) as (F3 & F4 & e' & h & E3 & E4 & _ & E5).
    destruct (IH s a b F1) as (Fs & Fa & Fb & B). fold S in B.
    split; auto. split; [|split].
    + intros i Hi. destruct (Nat.eq_dec i n) as [->|]; auto. apply Fa; lia.
    + intros i Hi. destruct (Nat.eq_dec i n) as [->|]; auto. apply Fb; lia.
    + rewrite E2. simpl rsum. rewrite <- Rplus_assoc.
      eapply Rle_trans; [eapply step_err with (E := (n + 1)%nat) (D := tiny prec emax n n) (e' := e'); eauto; try lia|].
      * eapply Rle_trans; [apply Rabs_triang|]. apply Rplus_le_compat_l, rsum_prod_le.
      * unfold tiny. apply Rmult_le_pos; [apply Rmult_le_pos; [apply pos_INR|pose proof eta_pos; lra]|]. pose proof (pow_ge1 n); lra.
      * rewrite Rabs_mult. unfold gam. rewrite (Rplus_assoc (Rabs (B2R s))).
        apply Rplus_le_compat; [right; do 2 f_equal; f_equal; lia|].
        unfold tiny. rewrite S_INR. simpl pow. pose proof (pow_ge1 n). pose proof u_pos. pose proof eta_pos. pose proof (pos_INR n).
        set (W := (1 + u) ^ n) in *. assert (0 < eta * (1 + u)) by nra. nra.
Qed.

(** Starting from zero, the first addition is exact. *)
Lemma Bplus_zero : forall x : fl, is_finite x = true -> B2R (Bplus mode_NE (B754_zero false) x) = B2R x /\ is_finite (Bplus mode_NE (B754_zero false) x) = true.
Proof. intros [[]|[]| |] H; simpl in *; try discriminate; auto. Qed.

Lemma dot0_err : forall n (a b : nat -> fl), is_finite (bsum (B754_zero false) n a b) = true ->
  all_finite n a /\ all_finite n b /\
  Rabs (B2R (bsum (B754_zero false) n a b) - rsum n (fun k => B2R (a k) * B2R (b k)))
  <= gam prec n * rsum n (fun k => Rabs (B2R (a k)) * Rabs (B2R (b k))) + tiny prec emax n n.
Proof.
  induction n as [|n IH]; intros a b H.
  - repeat split; auto; try (intros i Hi; lia). simpl. rewrite Rminus_0_r, Rabs_R0. unfold gam, tiny. simpl. lra.
  - rewrite sum_from_S in *. simpl Nat.add in *. set (S := bsum (B754_zero false) n a b) in *.
    change (@add O) with (@Bplus prec emax _ _ mode_NE) in *. change (@mul O) with (@Bmult prec emax _ _ mode_NE) in *.
    destruct (Bplus_fin _ _ H) as (F1 & F2 & _ & e & E1 & E2).
    destruct (Bmult_fin _ _ F2) as (F3 & F4 & e' & h & E3 & E4 & _ & E5).
    destruct (IH a b F1) as (Fa & Fb & B). fold S in B.
    assert (all_finite (Datatypes.S n) a /\ all_finite (Datatypes.S n) b) as [Fa' Fb'].
    { split; intros i Hi; destruct (Nat.eq_dec i n) as [->|]; auto; [apply Fa|apply Fb]; lia. }
    split; auto. split; auto.
    destruct n as [|n].
    + change S with (B754_zero false : fl). rewrite (proj1 (Bplus_zero _ F2)), E5. simpl. unfold gam, tiny. simpl.
      destruct v_bounds as (V0 & V1 & V2 & _). pose proof u_pos. pose proof eta_pos.
      replace (B2R (a 0%nat) * B2R (b 0%nat) * (1 + e') + h - (0 + B2R (a 0%nat) * B2R (b 0%nat)))
        with (B2R (a 0%nat) * B2R (b 0%nat) * e' + h) by ring.
      eapply Rle_trans; [apply Rabs_triang|]. rewrite !Rabs_mult.
      assert (Rabs (B2R (a 0%nat)) * Rabs (B2R (b 0%nat)) * Rabs e' <= Rabs (B2R (a 0%nat)) * Rabs (B2R (b 0%nat)) * u).
      { apply Rmult_le_compat_l; [apply Rmult_le_pos; apply Rabs_pos|lra]. }
      nra.
    + rewrite E2. cbn [rsum].
      eapply Rle_trans; [eapply step_err with (E := Datatypes.S n) (D := tiny prec emax (Datatypes.S n) (Datatypes.S n)) (e' := e'); eauto; try lia|].
      * apply (rsum_prod_le (Datatypes.S n)).
      * unfold tiny. apply Rmult_le_pos; [apply Rmult_le_pos; [apply pos_INR|pose proof eta_pos; lra]|]. pose proof (pow_ge1 (Datatypes.S n)); lra.
      * rewrite Rabs_mult. unfold gam. apply Rplus_le_compat; [right; do 2 f_equal; f_equal; lia|].
        unfold tiny. rewrite (S_INR (Datatypes.S n)). pose proof (pow_ge1 (Datatypes.S n)). pose proof u_pos. pose proof eta_pos. pose proof (pos_INR (Datatypes.S n)).
        change ((1 + u) ^ Datatypes.S (Datatypes.S n)) with ((1 + u) * (1 + u) ^ Datatypes.S n).
        set (W := (1 + u) ^ Datatypes.S n) in *. set (N := INR (Datatypes.S n)) in *. assert (0 < eta * (1 + u)) by nra. nra.
Qed.

Lemma tiny_nonneg : forall k n, 0 <= tiny prec emax k n.
Proof.
  intros. unfold tiny. apply Rmult_le_pos; [apply Rmult_le_pos; [apply pos_INR|pose proof eta_pos; lra]|]. pose proof (pow_ge1 n); lra.
Qed.
Lemma tiny_S : forall n, tiny prec emax n n + eta <= tiny prec emax (S n) (S n).
Proof.
  intros. unfold tiny. rewrite S_INR. simpl pow. pose proof (pow_ge1 n). pose proof u_pos. pose proof eta_pos. pose proof (pos_INR n).
  set (W := (1 + u) ^ n) in *. assert (0 <= INR n * eta * W) by (apply Rmult_le_pos; [apply Rmult_le_pos; lra|lra]).
  assert (eta * 1 <= eta * W) by (apply Rmult_le_compat_l; lra).
  assert (0 <= INR n * eta * W * u) by (apply Rmult_le_pos; lra).
  assert (0 <= eta * W * u) by (apply Rmult_le_pos; [apply Rmult_le_pos|]; lra).
  replace ((INR n + 1) * eta * ((1 + u) * W)) with (INR n * eta * W + INR n * eta * W * u + eta * W + eta * W * u) by ring. lra.
Qed.
Lemma prods_nonneg : forall n (a b : nat -> fl), 0 <= rsum n (fun k => Rabs (B2R (a k)) * Rabs (B2R (b k))).
Proof.
  induction n; intros; simpl; [lra|]. pose proof (IHn a b).
  assert (0 <= Rabs (B2R (a n)) * Rabs (B2R (b n))) by (apply Rmult_le_pos; apply Rabs_pos). lra.
Qed.

Lemma dot_finite : forall n (s : fl) (a b : nat -> fl), is_finite s = true -> all_finite n a -> all_finite n b ->
  (1 + u) ^ (n + 1) * (Rabs (B2R s) + rsum n (fun k => Rabs (B2R (a k)) * Rabs (B2R (b k)))) + tiny prec emax n n <= max_finite prec emax ->
  is_finite (bsum s n a b) = true.
Proof.
  induction n as [|n IH]; intros s a b Fs Fa Fb HM.
  - exact Fs.
  - rewrite sum_from_S in *. simpl Nat.add.
    change (@add O) with (@Bplus prec emax _ _ mode_NE) in *. change (@mul O) with (@Bmult prec emax _ _ mode_NE) in *.
    set (M := Rabs (B2R s) + rsum n (fun k => Rabs (B2R (a k)) * Rabs (B2R (b k)))) in *.
    set (c := Rabs (B2R (a n)) * Rabs (B2R (b n))).
    replace (Rabs (B2R s) + rsum (S n) (fun k => Rabs (B2R (a k)) * Rabs (B2R (b k)))) with (M + c) in HM
      by (unfold M, c; simpl; ring).
    assert (HM0 : 0 <= M) by (unfold M; pose proof (prods_nonneg n a b); pose proof (Rabs_pos (B2R s)); lra).
    assert (Hc : 0 <= c) by (unfold c; apply Rmult_le_pos; apply Rabs_pos).
    pose proof (tiny_S n) as HT. pose proof (tiny_nonneg n n) as HT0. pose proof u_pos as U. pose proof eta_pos as ET.
    pose proof (pow_ge1 (n + 1)) as P1.
    replace ((1 + u) ^ (S n + 1)) with ((1 + u) ^ (n + 1) * (1 + u)) in HM by (rewrite !pow_add; simpl; ring).
    set (W := (1 + u) ^ (n + 1)) in *.
    assert (W * 1 * (M + c) <= W * (1 + u) * (M + c)).
    { apply Rmult_le_compat_r; [lra|]. apply Rmult_le_compat_l; lra. }
    assert (1 * (1 + u) * c <= W * (1 + u) * c).
    { apply Rmult_le_compat_r; [lra|]. apply Rmult_le_compat_r; lra. }
    assert (W * M <= W * (1 + u) * M).
    { apply Rmult_le_compat_r; [lra|]. rewrite <- (Rmult_1_r W) at 1. apply Rmult_le_compat_l; lra. }
    assert (F1 : is_finite (bsum s n a b) = true).
    { apply IH; auto; [intros i Hi; apply Fa; lia|intros i Hi; apply Fb; lia|]. fold M. fold W.
      assert (0 <= W * c) by (apply Rmult_le_pos; lra). lra. }
    assert (F2 : is_finite (Bmult mode_NE (a n) (b n)) = true).
    { apply Bmult_no; [apply Fa; lia|apply Fb; lia|]. rewrite Rabs_mult. fold c.
      assert (0 <= W * (1 + u) * M) by (apply Rmult_le_pos; [apply Rmult_le_pos|]; lra).
      assert (c <= (1 + u) * c). { rewrite <- (Rmult_1_l c) at 1. apply Rmult_le_compat_r; lra. }
      lra. }
    apply Bplus_no; auto.
    destruct (Bmult_fin _ _ F2) as (_ & _ & e' & h & E3 & E4 & _ & ->).
    destruct (dot_err n s a b F1) as (_ & _ & _ & B).
    destruct v_bounds as (V0 & V1 & V2 & _).
    set (Sn := B2R (bsum s n a b)) in *. set (T := B2R s + rsum n (fun k => B2R (a k) * B2R (b k))) in *.
    fold M in B. unfold gam in B. fold W in B.
    assert (HTM : Rabs T <= M).
    { unfold T. eapply Rle_trans; [apply Rabs_triang|]. apply Rplus_le_compat_l, rsum_prod_le. }
    match goal with |- Rabs (B2R ?z + _) <= _ => change (B2R z) with Sn end.
    replace (Sn + (B2R (a n) * B2R (b n) * (1 + e') + h)) with ((Sn - T) + T + B2R (a n) * B2R (b n) * (1 + e') + h) by ring.
    eapply Rle_trans; [apply Rabs_triang|]. eapply Rle_trans; [apply Rplus_le_compat_r, Rabs_triang|].
    eapply Rle_trans; [apply Rplus_le_compat_r, Rplus_le_compat_r, Rabs_triang|].
    rewrite !Rabs_mult. fold c.
    assert (A1 : Rabs (1 + e') <= 1 + u). { apply Rabs_le. apply abs_bound in E3. lra. }
    assert (c * Rabs (1 + e') <= c * (1 + u)) by (apply Rmult_le_compat_l; auto).
    lra.
Qed.

End Ieee.

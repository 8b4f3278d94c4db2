(** Accuracy of setup_givens_rotation for real arguments in IEEE arithmetic. *)
From Coq Require Import List ZArith Reals Lia Lra Psatz Bool.
From Flocq Require Import Core.Core IEEE754.BinarySingleNaN Relative Plus_error Mult_error.
From Verif Require Import Norm SpecR SpecF SpecGF Givens Ieee PfIeee PfIeeeNorm PfIeeeSum.
Local Open Scope R_scope.

(** * Real numbers *)
Section Core.
Variables u eta : R.
Hypothesis U : 0 < u <= / 16.
Hypothesis ET : 0 <= eta <= u * u / 2.
Notation W := (1 + u).

Lemma W_pos : 0 < W. Proof. lra. Qed.
Lemma Wn : forall n, 0 < W ^ n. Proof. intros. apply pow_lt, W_pos. Qed.
Lemma W_inv : / W <= 1 - u + u * u.
Proof. apply Rmult_le_reg_r with W; [lra|]. rewrite Rinv_l by lra. nra. Qed.

Lemma norm_dist : forall F G f g R2, R2 = F * F + G * G -> 0 <= R2 ->
  Rabs (f - F) <= 3 * eta * sqrt R2 -> Rabs (g - G) <= 3 * eta * sqrt R2 ->
  Rabs (f * f + g * g - R2) <= 13 / 2 * (u * u) * R2.
Proof.
  intros F G f g R2 -> HR Hf Hg. set (R := sqrt (F * F + G * G)) in *.
  assert (HS : R * R = F * F + G * G) by (apply sqrt_sqrt; auto).
  assert (R0 : 0 <= R) by apply sqrt_pos. rewrite <- HS.
  assert (Rabs F <= R) by (apply Rsqr_incr_0_var; auto; rewrite <- Rsqr_abs; unfold Rsqr; nra).
  assert (Rabs G <= R) by (apply Rsqr_incr_0_var; auto; rewrite <- Rsqr_abs; unfold Rsqr; nra).
  set (a := f - F) in *. set (b := g - G) in *.
  replace (f * f + g * g - R * R) with (2 * (F * a) + 2 * (G * b) + (a * a + b * b)) by (rewrite HS; unfold a, b; ring).
  assert (X1 : Rabs (F * a) <= R * (3 * eta * R)) by (rewrite Rabs_mult; apply Rmult_le_compat; auto; apply Rabs_pos).
  assert (X2 : Rabs (G * b) <= R * (3 * eta * R)) by (rewrite Rabs_mult; apply Rmult_le_compat; auto; apply Rabs_pos).
  assert (X3 : Rabs (a * a) <= (3 * eta * R) * (3 * eta * R)) by (rewrite Rabs_mult; apply Rmult_le_compat; auto; apply Rabs_pos).
  assert (X4 : Rabs (b * b) <= (3 * eta * R) * (3 * eta * R)) by (rewrite Rabs_mult; apply Rmult_le_compat; auto; apply Rabs_pos).
  apply Rabs_le_inv in X1, X2, X3, X4.
  assert (Y : 4 * (R * (3 * eta * R)) + 2 * ((3 * eta * R) * (3 * eta * R)) <= 13 / 2 * (u * u) * (R * R)).
  { replace (4 * (R * (3 * eta * R)) + 2 * ((3 * eta * R) * (3 * eta * R))) with ((12 * eta + 18 * (eta * eta)) * (R * R)) by ring.
    apply Rmult_le_compat_r; [nra|]. assert (eta * eta <= eta * (/ 512)) by (apply Rmult_le_compat_l; nra). nra. }
  apply Rabs_le. lra.
Qed.

(** The computed sum of squares *)
Lemma sum_bounds : forall A R2 S q1 q2 e1 e2 h1 h2 e3, 0 <= R2 -> 0 <= q1 -> 0 <= q2 -> A = q1 + q2 ->
  Rabs (A - R2) <= 13 / 2 * (u * u) * R2 ->
  Rabs e1 <= u -> Rabs e2 <= u -> Rabs h1 <= 2 * (u * u) * A -> Rabs h2 <= 2 * (u * u) * A -> Rabs e3 <= u ->
  S = (q1 * (1 + e1) + h1 + (q2 * (1 + e2) + h2)) * (1 + e3) ->
  R2 <= S * W ^ 4 * (W * (1 - u)) ^ 2 /\ S <= R2 * W ^ 4.
Proof.
  intros A R2 S q1 q2 e1 e2 h1 h2 e3 HR Q1 Q2 EA HA E1 E2 H1 H2 E3 ->.
  apply Rabs_le_inv in HA, E1, E2, H1, H2, E3.
  assert (A0 : 0 <= A) by lra.
  set (T := q1 * (1 + e1) + h1 + (q2 * (1 + e2) + h2)).
  assert (T1 : T <= A * (1 + u + 4 * (u * u))) by (unfold T; nra).
  assert (T2 : A * (1 - u - 4 * (u * u)) <= T) by (unfold T; nra).
  assert (C : 0 <= 1 - u - 4 * (u * u)) by nra.
  split.
  - assert (S1 : A * (1 - u - 4 * (u * u)) * (1 - u) <= T * (1 + e3)).
    { apply Rmult_le_compat; try lra. apply Rmult_le_pos; auto. }
    assert (B : R2 * (1 - 13 / 2 * (u * u)) <= A) by lra.
    assert (D : 0 <= W ^ 4 * (W * (1 - u)) ^ 2).
    { apply Rmult_le_pos; [apply Rlt_le, Wn|]. apply pow_le, Rmult_le_pos; lra. }
    eapply Rle_trans; [|rewrite Rmult_assoc; apply Rmult_le_compat_r; [exact D|exact S1]].
    assert (X : R2 * (1 - 13 / 2 * (u * u)) * (1 - u - 4 * (u * u)) * (1 - u) <= A * (1 - u - 4 * (u * u)) * (1 - u)).
    { apply Rmult_le_compat_r; [lra|]. apply Rmult_le_compat_r; auto. }
    eapply Rle_trans; [|apply Rmult_le_compat_r; [exact D|exact X]].
    replace (R2 * (1 - 13 / 2 * (u * u)) * (1 - u - 4 * (u * u)) * (1 - u) * (W ^ 4 * (W * (1 - u)) ^ 2))
      with (R2 * ((1 - 13 / 2 * (u * u)) * (1 - u - 4 * (u * u)) * (1 - u) * (W ^ 4 * (W * (1 - u)) ^ 2))) by ring.
    rewrite <- (Rmult_1_r R2) at 1. apply Rmult_le_compat_l; auto.
    assert (P1 : 1 - u * u <= (1 - u) * W) by nra.
    assert (P2 : (1 - u * u) * (1 - u * u) <= (W * (1 - u)) ^ 2) by nra.
    assert (P3 : 1 - 3 * (u * u) <= (1 - u) * W * (W * (1 - u)) ^ 2) by nra.
    assert (P4 : 1 + 3 * u + 3 * (u * u) <= W ^ 3) by nra.
    replace ((1 - 13 / 2 * (u * u)) * (1 - u - 4 * (u * u)) * (1 - u) * (W ^ 4 * (W * (1 - u)) ^ 2))
      with ((1 - 13 / 2 * (u * u)) * (1 - u - 4 * (u * u)) * W ^ 3 * ((1 - u) * W * (W * (1 - u)) ^ 2)) by ring.
    assert (P5 : 1 - u - 21 / 2 * (u * u) <= (1 - 13 / 2 * (u * u)) * (1 - u - 4 * (u * u))) by nra.
    assert (P6 : 0 <= 1 - u - 21 / 2 * (u * u)) by nra.
    assert (P7 : (1 - u - 21 / 2 * (u * u)) * (1 + 3 * u + 3 * (u * u)) <= (1 - 13 / 2 * (u * u)) * (1 - u - 4 * (u * u)) * W ^ 3).
    { apply Rmult_le_compat; auto; nra. }
    assert (P8 : 1 + 2 * u - 13 * (u * u) <= (1 - u - 21 / 2 * (u * u)) * (1 + 3 * u + 3 * (u * u))) by nra.
    assert (P9 : 0 <= 1 + 2 * u - 13 * (u * u)) by nra.
    apply Rle_trans with ((1 + 2 * u - 13 * (u * u)) * (1 - 3 * (u * u))); [nra|].
    apply Rmult_le_compat; try lra.
  - assert (S1 : T * (1 + e3) <= A * (1 + u + 4 * (u * u)) * W).
    { apply Rmult_le_compat; try lra. apply Rle_trans with (2 := T2). apply Rmult_le_pos; auto. }
    eapply Rle_trans; [exact S1|].
    assert (B : A <= R2 * (1 + 13 / 2 * (u * u))) by lra.
    assert (X : A * (1 + u + 4 * (u * u)) * W <= R2 * (1 + 13 / 2 * (u * u)) * (1 + u + 4 * (u * u)) * W).
    { apply Rmult_le_compat_r; [lra|]. apply Rmult_le_compat_r; auto. nra. }
    eapply Rle_trans; [exact X|].
    replace (R2 * W ^ 4) with (R2 * W ^ 3 * W) by ring. apply Rmult_le_compat_r; [lra|]. rewrite Rmult_assoc. apply Rmult_le_compat_l; auto.
    assert ((1 + 13 / 2 * (u * u)) * (1 + u + 4 * (u * u)) <= 1 + u + 12 * (u * u)) by nra. nra.
Qed.

Lemma root_bounds : forall R2 S r e, 0 <= R2 -> 0 <= S -> R2 <= S * W ^ 4 * (W * (1 - u)) ^ 2 -> S <= R2 * W ^ 4 -> Rabs e <= u ->
  r = sqrt S * (1 + e) -> sqrt R2 <= r * W ^ 3 /\ r <= sqrt R2 * W ^ 3.
Proof.
  intros R2 S r e HR HS H1 H2 HE ->. apply Rabs_le_inv in HE.
  assert (E4 : sqrt (W ^ 4) = W ^ 2) by (replace (W ^ 4) with (W ^ 2 * W ^ 2) by ring; apply sqrt_square, Rlt_le, Wn).
  split.
  - apply sqrt_le_1_alt in H1. rewrite sqrt_mult_alt in H1 by (apply Rmult_le_pos; auto; apply Rlt_le, Wn).
    rewrite sqrt_mult_alt, E4, sqrt_pow2 in H1; auto; [|apply Rmult_le_pos; lra].
    eapply Rle_trans; [exact H1|]. replace (sqrt S * (1 + e) * W ^ 3) with (sqrt S * W ^ 2 * (W * (1 + e))) by ring.
    apply Rmult_le_compat_l; [apply Rmult_le_pos; [apply sqrt_pos|apply Rlt_le, Wn]|]. apply Rmult_le_compat_l; lra.
  - apply sqrt_le_1_alt in H2. rewrite sqrt_mult_alt, E4 in H2 by auto.
    replace (sqrt R2 * W ^ 3) with (sqrt R2 * W ^ 2 * W) by ring. apply Rmult_le_compat; auto; try lra. apply sqrt_pos.
Qed.

(** The quotients *)
Lemma quot_bounds : forall R r F f e h, 0 < R -> R <= r * W ^ 3 -> r <= R * W ^ 3 -> Rabs (f - F) <= 3 * eta * R ->
  Rabs e <= u / W -> Rabs h <= eta -> 
  Rabs (f / r * (1 + e) + h - F / R) <= (W ^ 4 - 1) * Rabs (F / R) + 5 * eta.
Proof.
  intros R r F f e h HR H1 H2 HF HE HH.
  assert (r0 : 0 < r). { pose proof (Wn 3). destruct (Rle_or_lt r 0); auto. assert (r * W ^ 3 <= 0) by nra. lra. }
  set (p := R / r * (1 + e)).
  assert (RB : / W ^ 3 <= R / r <= W ^ 3).
  { split.
    - apply Rmult_le_reg_r with (W ^ 3 * r); [apply Rmult_lt_0_compat; auto; apply Wn|].
      replace (/ W ^ 3 * (W ^ 3 * r)) with r by (field; apply Rgt_not_eq, W_pos). replace (R / r * (W ^ 3 * r)) with (R * W ^ 3) by (field; lra). auto.
    - apply Rmult_le_reg_r with r; auto. replace (R / r * r) with R by (field; lra). lra. }
  apply Rabs_le_inv in HE.
  assert (V : u / W = 1 - / W) by (field; lra). assert (0 < / W) by (apply Rinv_0_lt_compat; lra).
  assert (u / W <= u). { rewrite V. apply Rmult_le_reg_r with W; [lra|]. rewrite Rmult_minus_distr_r, Rinv_l by lra. nra. }
  assert (PB : / W ^ 4 <= p <= W ^ 4).
  { unfold p. split.
    - replace (/ W ^ 4) with (/ W ^ 3 * / W) by (field; lra). apply Rmult_le_compat; try lra. apply Rlt_le, Rinv_0_lt_compat, Wn.
    - replace (W ^ 4) with (W ^ 3 * W) by ring. apply Rmult_le_compat; try lra. apply Rlt_le, Rdiv_lt_0_compat; auto. }
  assert (P1 : Rabs (p - 1) <= W ^ 4 - 1).
  { apply Rabs_le. assert (1 <= W ^ 4) by (apply pow_R1_Rle; lra).
    assert (2 <= / W ^ 4 + W ^ 4). { set (z := W ^ 4) in *. apply Rmult_le_reg_r with z; [lra|]. rewrite Rmult_plus_distr_r, Rinv_l by lra. pose proof (Rle_0_sqr (z - 1)). unfold Rsqr in *. lra. }
    lra. }
  replace (f / r * (1 + e) + h - F / R) with (F / R * (p - 1) + (f - F) / R * p + h) by (unfold p; field; lra).
  assert (W4 : W ^ 4 <= 13 / 10). { assert (W * W <= 114 / 100) by nra. replace (W ^ 4) with ((W * W) * (W * W)) by ring. nra. }
  assert (D : Rabs ((f - F) / R) <= 3 * eta).
  { unfold Rdiv. rewrite Rabs_mult, (Rabs_pos_eq (/ R)) by (apply Rlt_le, Rinv_0_lt_compat; auto).
    apply Rmult_le_reg_r with R; auto. rewrite Rmult_assoc, Rinv_l, Rmult_1_r by lra. auto. }
  assert (D2 : Rabs ((f - F) / R * p) <= 3 * eta * (13 / 10)).
  { rewrite Rabs_mult. apply Rmult_le_compat; try apply Rabs_pos; auto. rewrite Rabs_pos_eq; [lra|].
    apply Rle_trans with (/ W ^ 4); [apply Rlt_le, Rinv_0_lt_compat, Wn|lra]. }
  assert (D1 : Rabs (F / R * (p - 1)) <= (W ^ 4 - 1) * Rabs (F / R)).
  { rewrite Rabs_mult, Rmult_comm. apply Rmult_le_compat_r; auto. apply Rabs_pos. }
  eapply Rle_trans; [apply Rabs_triang|]. eapply Rle_trans; [apply Rplus_le_compat_r, Rabs_triang|]. lra.
Qed.
End Core.

(** * Floating-point numbers *)
Section Float.
Context (prec emax : Z) (Hp : Prec_gt_0 prec) (He : Prec_lt_emax prec emax).
Variable hypot : binary_float prec emax -> binary_float prec emax -> binary_float prec emax.
Notation F := (ieee prec emax Hp He hypot).
Notation fl := (binary_float prec emax).
Notation bp := (bpow radix2).
Notation u := (unit_roundoff prec).
Notation eta := (half_tiny prec emax).
Notation maxf := (max_finite prec emax).
Notation fexp := (FLT_exp (3 - emax - prec) prec).
Notation rnd := (round radix2 fexp ZnearestE).
Variables (k : Z) (sm : fl).
Hypothesis Esm : B2R sm = bp (- k).
Hypothesis P4 : (4 <= prec)%Z.
Hypothesis K1 : (1 <= k)%Z.
Hypothesis K2 : (2 * k <= emax - prec - 1)%Z.

Lemma u16 : 0 < u <= / 16.
Proof.
  split; [apply u_pos|]. unfold unit_roundoff. replace (/ 16) with (bp (-4)) by (simpl; lra). apply bpow_le. lia.
Qed.
Lemma eta_k : eta * bp (2 * k) <= 2 * (u * u).
Proof.
  unfold half_tiny, unit_roundoff. replace 2 with (bp 1) at 2 by (simpl; lra). change (/ 2) with (bp (-1)).
  rewrite <- !bpow_plus. apply bpow_le. lia.
Qed.
Lemma eta_uu : 0 <= eta <= u * u / 2.
Proof.
  split; [pose proof (eta_pos prec emax); lra|]. pose proof eta_k as E. pose proof (eta_pos prec emax).
  assert (4 <= bp (2 * k)). { change 4 with (bp 2). apply bpow_le. lia. } nra.
Qed.
Lemma bpf : forall j, (3 - emax - prec <= j)%Z -> generic_format radix2 fexp (bp j).
Proof. intros. apply generic_format_bpow. unfold FLT_exp. red in Hp. lia. Qed.
Lemma sm_finite : is_finite sm = true.
Proof. pose proof (bpow_gt_0 radix2 (- k)). destruct sm; auto; simpl in Esm; lra. Qed.
Lemma maxf_bp : bp (emax - 1) <= maxf.
Proof.
  unfold max_finite. replace emax with (emax - 1 + 1)%Z at 2 by lia. rewrite (bpow_plus radix2 (emax - 1) 1).
  assert (bp (emax - prec) <= bp (emax - 1)) by (apply bpow_le; lia). simpl (bp 1). lra.
Qed.
Lemma mx : B2R (@safmx2 F sm) = bp k /\ is_finite (@safmx2 F sm : fl) = true.
Proof.
  unfold safmx2. change (@rdiv F) with (@Bdiv prec emax Hp He mode_NE). change (@r1 F) with (@Bone prec emax Hp He).
  assert (X : B2R (@Bone prec emax Hp He) / B2R sm = bp k).
  { rewrite one_R, Esm, bpow_opp. field. apply Rgt_not_eq, bpow_gt_0. }
  destruct (Bdiv_r prec emax Hp He (@Bone prec emax Hp He) sm) as (A & B).
  - apply one_fin.
  - rewrite Esm. apply Rgt_not_eq, bpow_gt_0.
  - rewrite X, Rabs_pos_eq by apply bpow_ge_0. apply Rle_trans with (2 := maxf_bp). apply bpow_le. red in Hp. lia.
  - split; auto. rewrite B, X. apply round_generic; auto with typeclass_instances. apply bpf. red in Hp. lia.
Qed.

(** Multiplication by powers of two *)
Lemma mul_up : forall x y : fl, is_finite x = true -> is_finite y = true -> B2R y = bp k ->
  (is_finite (Bmult mode_NE x y) = true -> B2R (Bmult mode_NE x y) = B2R x * bp k) /\
  (Rabs (B2R x * bp k) <= maxf -> is_finite (Bmult mode_NE x y) = true).
Proof.
  intros x y Fx Fy Ey. split.
  - intros H. pose proof (Bmult_correct prec emax Hp He mode_NE x y) as C. rewrite Ey in C.
    destruct (Rlt_bool _ _).
    + destruct C as (C & _). rewrite C. apply round_generic; [apply valid_rnd_N|].
      apply mult_bpow_pos_exact_FLT; [apply fmt; auto|lia].
    + apply overflow_inf in C; auto. congruence.
  - intros H. apply (Bmult_no prec emax Hp He); auto. rewrite Ey; auto.
Qed.
Lemma rnd_down : forall x : fl, Rabs (rnd (B2R x * bp (- k)) - B2R x * bp (- k)) <= eta.
Proof.
  intros x. pose proof (eta_pos prec emax) as ET.
  destruct (Req_dec (B2R x) 0) as [->|N].
  - rewrite Rmult_0_l, round_0 by apply valid_rnd_N. rewrite Rminus_0_r, Rabs_R0. lra.
  - destruct (Z_le_gt_dec (3 - emax - prec + prec - Raux.mag radix2 (B2R x)) (- k)) as [L|G].
    + rewrite round_generic; [rewrite Rminus_diag_eq, Rabs_R0 by auto; lra|apply valid_rnd_N|].
      apply mult_bpow_exact_FLT; auto. apply fmt; auto.
    + eapply Rle_trans; [apply error_le_half_ulp; auto with typeclass_instances|].
      rewrite ulp_FLT_small; [unfold half_tiny; lra|auto|].
      rewrite Rabs_mult, (Rabs_pos_eq (bp (- k))) by apply bpow_ge_0.
      apply Rlt_le_trans with (bp (Raux.mag radix2 (B2R x)) * bp (- k)).
      * apply Rmult_lt_compat_r; [apply bpow_gt_0|apply bpow_mag_gt].
      * rewrite <- bpow_plus. apply bpow_le. lia.
Qed.
Lemma fl_max : forall x : fl, Rabs (B2R x) <= maxf.
Proof.
  intros x. unfold max_finite. destruct (is_finite x) eqn:Fx.
  - pose proof (abs_B2R_le_emax_minus_prec prec emax Hp x). lra.
  - replace (B2R x) with 0 by (destruct x; auto; discriminate). rewrite Rabs_R0.
    red in Hp. assert (bp (emax - prec) <= bp emax) by (apply bpow_le; lia). lra.
Qed.
Lemma mul_down : forall x y : fl, is_finite x = true -> is_finite y = true -> B2R y = bp (- k) ->
  is_finite (Bmult mode_NE x y) = true /\ B2R (Bmult mode_NE x y) = rnd (B2R x * bp (- k)).
Proof.
  intros x y Fx Fy Ey. rewrite <- Ey. apply (Bmult_r prec emax Hp He); auto. rewrite Ey, Rabs_mult, (Rabs_pos_eq (bp (- k))) by apply bpow_ge_0.
  pose proof (fl_max x). pose proof (Rabs_pos (B2R x)). assert (bp (- k) <= 1) by (change 1 with (bp 0); apply bpow_le; lia).
  pose proof (bpow_ge_0 radix2 (- k)). nra.
Qed.

(** The larger of two magnitudes *)
Definition amax (x y : fl) : R := Rmax (Rabs (B2R x)) (Rabs (B2R y)).
Lemma amax_R : forall x y : fl, is_finite x = true -> is_finite y = true ->
  is_finite (@std_max F (@rabs F x) (@rabs F y) : fl) = true /\ B2R (@std_max F (@rabs F x) (@rabs F y) : fl) = amax x y.
Proof.
  intros x y Fx Fy. unfold amax. rewrite <- !B2R_Babs.
  apply (std_max_R prec emax Hp He (Babs x) (Babs y)); rewrite is_finite_Babs; auto.
Qed.
Lemma leb_R : forall x y : fl, is_finite x = true -> is_finite y = true -> @rleb F x y = Rle_bool (B2R x) (B2R y).
Proof. intros. simpl. apply Bleb_correct; auto. Qed.

Lemma scale_down_inv : forall fuel count (f1 g1 : fl) fa ga, is_finite f1 = true -> is_finite g1 = true ->
  Rabs (B2R f1 - fa) <= 2 * eta -> Rabs (B2R g1 - ga) <= 2 * eta -> bp k <= amax f1 g1 ->
  forall count' (f2 g2 : fl), @scale_down F sm fuel count f1 g1 = Some (count', f2, g2) ->
  exists n, count' = (count + n)%nat /\ is_finite f2 = true /\ is_finite g2 = true /\
    Rabs (B2R f2 - fa * bp (- (Z.of_nat n * k))) <= 2 * eta /\ Rabs (B2R g2 - ga * bp (- (Z.of_nat n * k))) <= 2 * eta /\
    1 <= amax f2 g2 <= bp k.
Proof.
  induction fuel as [|fuel IH]; intros count f1 g1 fa ga F1 G1 Hf Hg Hm count' f2 g2 H; [discriminate|].
  cbn [scale_down] in H. change (@rmul F) with (@Bmult prec emax Hp He mode_NE) in H.
  destruct (mul_down f1 sm F1 sm_finite Esm) as (A1 & A2). destruct (mul_down g1 sm G1 sm_finite Esm) as (B1 & B2).
  set (f1' := Bmult mode_NE f1 sm) in *. set (g1' := Bmult mode_NE g1 sm) in *.
  pose proof (rnd_down f1) as A3. pose proof (rnd_down g1) as B3. rewrite <- A2 in A3. rewrite <- B2 in B3.
  assert (HB : 0 < bp (- k) <= / 2).
  { split; [apply bpow_gt_0|]. change (/ 2) with (bp (-1)). apply bpow_le. lia. }
  assert (E : forall x x' xa, Rabs (x - xa) <= 2 * eta -> Rabs (x' - x * bp (- k)) <= eta -> Rabs (x' - xa * bp (- k)) <= 2 * eta).
  { intros x x' xa X1 X2. replace (x' - xa * bp (- k)) with (x' - x * bp (- k) + (x - xa) * bp (- k)) by ring.
    eapply Rle_trans; [apply Rabs_triang|]. rewrite Rabs_mult, (Rabs_pos_eq (bp (- k))) by lra.
    assert (Rabs (x - xa) * bp (- k) <= 2 * eta * / 2) by (apply Rmult_le_compat; try lra; apply Rabs_pos). lra. }
  assert (Ef : Rabs (B2R f1' - fa * bp (- k)) <= 2 * eta) by (eapply E; eauto).
  assert (Eg : Rabs (B2R g1' - ga * bp (- k)) <= 2 * eta) by (eapply E; eauto).
  assert (M1 : 1 <= amax f1' g1').
  { assert (Q : forall x : fl, bp k <= Rabs (B2R x) -> 1 <= Rabs (rnd (B2R x * bp (- k)))).
    { intros x Hx. change 1 with (bp 0). apply abs_round_ge_generic; auto with typeclass_instances; [apply bpf; red in Hp; lia|].
      rewrite Rabs_mult, (Rabs_pos_eq (bp (- k))) by lra. replace 0%Z with (k + - k)%Z by lia. rewrite bpow_plus.
      apply Rmult_le_compat_r; lra. }
    unfold amax in *. rewrite A2, B2.
    destruct (Rle_dec (Rabs (B2R f1)) (Rabs (B2R g1))).
    - rewrite Rmax_right in Hm by auto. apply Rle_trans with (2 := Rmax_r _ _). auto.
    - rewrite Rmax_left in Hm by lra. apply Rle_trans with (2 := Rmax_l _ _). auto. }
  destruct (amax_R f1' g1' A1 B1) as (S1 & S2). destruct mx as (X1 & X2).
  rewrite (leb_R _ _ X2 S1), X1, S2 in H.
  destruct (Rle_bool_spec (bp k) (amax f1' g1')) as [L|L].
  - destruct (IH (S count) f1' g1' _ _ A1 B1 Ef Eg L _ _ _ H) as (n & -> & F2 & G2 & C1 & C2 & C3).
    exists (S n). split; [lia|]. split; auto. split; auto.
    replace (- (Z.of_nat (S n) * k))%Z with (- k + - (Z.of_nat n * k))%Z by lia.
    rewrite bpow_plus, <- !Rmult_assoc. auto.
  - inversion H; subst count' f2 g2. exists 1%nat. split; [lia|]. split; auto. split; auto.
    replace (- (Z.of_nat 1 * k))%Z with (- k)%Z by lia. repeat split; auto. lra.
Qed.

Lemma scale_up_inv : forall fuel count (f1 g1 : fl), is_finite f1 = true -> is_finite g1 = true ->
  amax f1 g1 <= bp (- k) ->
  forall count' (f2 g2 : fl), @scale_up F sm fuel count f1 g1 = Some (count', f2, g2) ->
  exists n, count' = (count + n)%nat /\ is_finite f2 = true /\ is_finite g2 = true /\
    B2R f2 = B2R f1 * bp (Z.of_nat n * k) /\ B2R g2 = B2R g1 * bp (Z.of_nat n * k) /\
    bp (- k) <= amax f2 g2 <= 1.
Proof.
  induction fuel as [|fuel IH]; intros count f1 g1 F1 G1 Hm count' f2 g2 H; [discriminate|].
  cbn [scale_up] in H. change (@rmul F) with (@Bmult prec emax Hp He mode_NE) in H.
  destruct mx as (X1 & X2).
  assert (HB : 0 < bp k) by apply bpow_gt_0.
  assert (One : 1 <= maxf). { apply Rle_trans with (2 := maxf_bp). change 1 with (bp 0). apply bpow_le. red in Hp. lia. }
  assert (Q : forall x : fl, Rabs (B2R x) <= bp (- k) -> Rabs (B2R x * bp k) <= 1).
  { intros x Hx. rewrite Rabs_mult, (Rabs_pos_eq (bp k)) by lra. change 1 with (bp 0). replace 0%Z with (- k + k)%Z by lia.
    rewrite bpow_plus. apply Rmult_le_compat_r; lra. }
  assert (Hf : Rabs (B2R f1) <= bp (- k)) by (apply Rle_trans with (2 := Hm); apply Rmax_l).
  assert (Hg : Rabs (B2R g1) <= bp (- k)) by (apply Rle_trans with (2 := Hm); apply Rmax_r).
  destruct (mul_up f1 (@safmx2 F sm) F1 X2 X1) as (A2 & A1). destruct (mul_up g1 (@safmx2 F sm) G1 X2 X1) as (B2 & B1).
  specialize (A1 (Rle_trans _ _ _ (Q f1 Hf) One)). specialize (B1 (Rle_trans _ _ _ (Q g1 Hg) One)).
  specialize (A2 A1). specialize (B2 B1).
  set (f1' := Bmult mode_NE f1 (@safmx2 F sm)) in *. set (g1' := Bmult mode_NE g1 (@safmx2 F sm)) in *.
  assert (M1 : amax f1' g1' <= 1) by (unfold amax; rewrite A2, B2; apply Rmax_lub; auto).
  destruct (amax_R f1' g1' A1 B1) as (S1 & S2).
  rewrite (leb_R _ _ S1 sm_finite), Esm, S2 in H.
  destruct (Rle_bool_spec (amax f1' g1') (bp (- k))) as [L|L].
  - destruct (IH (S count) f1' g1' A1 B1 L _ _ _ H) as (n & -> & F2 & G2 & C1 & C2 & C3).
    exists (S n). split; [lia|]. split; auto. split; auto.
    replace (Z.of_nat (S n) * k)%Z with (k + Z.of_nat n * k)%Z by lia.
    rewrite bpow_plus, <- !Rmult_assoc, <- A2, <- B2. auto.
  - inversion H; subst count' f2 g2. exists 1%nat. split; [lia|]. split; auto. split; auto.
    replace (Z.of_nat 1 * k)%Z with k by lia. repeat split; auto. lra.
Qed.

Lemma amax_sq : forall x y : fl, amax x y * amax x y <= B2R x * B2R x + B2R y * B2R y.
Proof.
  intros. unfold amax, Rmax. destruct (Rle_dec _ _); rewrite <- Rabs_mult, Rabs_pos_eq by nra; nra.
Qed.
Lemma sq_le : forall x m, Rabs x <= m -> 0 <= x * x <= m * m.
Proof. intros x m H. split; [nra|]. rewrite <- (Rabs_pos_eq (x * x)) by nra. rewrite Rabs_mult. apply Rmult_le_compat; auto; apply Rabs_pos. Qed.

Lemma plain_ok : forall (f1 g1 : fl) F0 G0, is_finite f1 = true -> is_finite g1 = true -> bp (- k) <= amax f1 g1 <= bp k ->
  let R := sqrt (F0 * F0 + G0 * G0) in
  0 < R -> Rabs (B2R f1 - F0) <= 3 * eta * R -> Rabs (B2R g1 - G0) <= 3 * eta * R ->
  forall cs sn r : fl, @plain_rotation F f1 g1 = (cs, sn, r) ->
  is_finite cs = true /\ is_finite sn = true /\ is_finite r = true /\
  R <= B2R r * (1 + u) ^ 3 /\ B2R r <= R * (1 + u) ^ 3 /\
  Rabs (B2R cs - F0 / R) <= gam prec 4 * Rabs (F0 / R) + 5 * eta /\
  Rabs (B2R sn - G0 / R) <= gam prec 4 * Rabs (G0 / R) + 5 * eta.
Proof.
  intros f1 g1 F0 G0 Ff Fg Hm R HR Hf Hg cs sn r H. unfold plain_rotation in H.
  change (@rmul F) with (@Bmult prec emax Hp He mode_NE) in H. change (@radd F) with (@Bplus prec emax Hp He mode_NE) in H.
  change (@rdiv F) with (@Bdiv prec emax Hp He mode_NE) in H. change (@rsqrt F) with (@Bsqrt prec emax Hp He mode_NE) in H.
  set (A := B2R f1 * B2R f1 + B2R g1 * B2R g1).
  assert (BK : 0 < bp (- k) /\ 0 < bp k) by (split; apply bpow_gt_0).
  assert (BK2 : bp k * bp k = bp (2 * k)) by (rewrite <- bpow_plus; f_equal; lia).
  assert (BM2 : bp (- k) * bp (- k) = bp (- (2 * k))) by (rewrite <- bpow_plus; f_equal; lia).
  assert (Lf : Rabs (B2R f1) <= bp k) by (apply Rle_trans with (2 := proj2 Hm); apply Rmax_l).
  assert (Lg : Rabs (B2R g1) <= bp k) by (apply Rle_trans with (2 := proj2 Hm); apply Rmax_r).
  destruct (sq_le _ _ Lf) as (f0 & f2). destruct (sq_le _ _ Lg) as (g0 & g2). rewrite BK2 in f2, g2.
  assert (Max2 : bp (2 * k + 1) <= maxf).
  { apply Rle_trans with (2 := maxf_bp). apply bpow_le. red in Hp; lia. }
  rewrite bpow_plus in Max2. simpl (bp 1) in Max2. pose proof (bpow_gt_0 radix2 (2 * k)).
  assert (SQ : forall x : fl, is_finite x = true -> 0 <= B2R x * B2R x <= bp (2 * k) ->
    is_finite (Bmult mode_NE x x) = true /\ 0 <= B2R (Bmult mode_NE x x) <= bp (2 * k) /\
    exists e h, Rabs e <= u /\ Rabs h <= eta /\ B2R (Bmult mode_NE x x) = B2R x * B2R x * (1 + e) + h).
  { intros x Fx Hx. destruct (Bmult_r prec emax Hp He x x Fx Fx) as (C1 & C2); [rewrite Rabs_pos_eq; lra|].
    split; auto. destruct (rnd_u prec emax Hp (B2R x * B2R x)) as (e & h & N1 & N2 & _ & N3). rewrite C2. split; [split|].
    - apply round_ge_generic; auto with typeclass_instances. apply generic_format_0. lra.
    - apply round_le_generic; auto with typeclass_instances. apply bpf. red in Hp; lia. lra.
    - exists e, h. auto. }
  destruct (SQ f1 Ff) as (P1 & P2 & e1 & h1 & P3 & P5 & P6); [lra|].
  destruct (SQ g1 Fg) as (Q1 & Q2 & e2 & h2 & Q3 & Q5 & Q6); [lra|].
  set (pf := Bmult mode_NE f1 f1) in *. set (pg := Bmult mode_NE g1 g1) in *.
  destruct (Bplus_r prec emax Hp He pf pg P1 Q1) as (S1 & S2 & e3 & S3 & S4); [rewrite Rabs_pos_eq; lra|].
  set (S := Bplus mode_NE pf pg) in *.
  assert (AM : bp (- (2 * k)) <= A).
  { unfold A. eapply Rle_trans; [|apply amax_sq]. rewrite <- BM2. apply Rmult_le_compat; lra. }
  assert (EA : eta <= 2 * (u * u) * A).
  { pose proof eta_k as X. apply Rle_trans with (2 * (u * u) * bp (- (2 * k))).
    - apply Rmult_le_reg_r with (bp (2 * k)); auto. rewrite (Rmult_assoc _ (bp (- (2 * k)))), <- bpow_plus.
      replace (- (2 * k) + 2 * k)%Z with 0%Z by lia. simpl (bp 0). lra.
    - apply Rmult_le_compat_l; auto. pose proof u16; nra. }
  assert (R2 : F0 * F0 + G0 * G0 >= 0) by nra.
  assert (ND : Rabs (A - (F0 * F0 + G0 * G0)) <= 13 / 2 * (u * u) * (F0 * F0 + G0 * G0)).
  { unfold A. apply (norm_dist u eta u16 eta_uu F0 G0); auto; try lra. }
  destruct (sum_bounds u eta u16 eta_uu A (F0 * F0 + G0 * G0) (B2R S) (B2R f1 * B2R f1) (B2R g1 * B2R g1) e1 e2 h1 h2 e3) as (T1 & T2); auto; try lra.
  { rewrite S4, P6, Q6. reflexivity. }
  (* the root *)
  assert (SB : bp (- (2 * k)) <= B2R S).
  { rewrite S2. apply round_ge_generic; auto with typeclass_instances; [apply bpf; red in Hp; lia|].
    assert (M2 : forall x : fl, bp (- k) <= Rabs (B2R x) -> bp (- (2 * k)) <= rnd (B2R x * B2R x)).
    { intros x Hx. apply round_ge_generic; auto with typeclass_instances; [apply bpf; red in Hp; lia|].
      rewrite <- BM2, <- (Rabs_pos_eq (B2R x * B2R x)) by nra. rewrite Rabs_mult. apply Rmult_le_compat; lra. }
    destruct (Bmult_r prec emax Hp He f1 f1 Ff Ff) as (_ & C1); [rewrite Rabs_pos_eq; lra|].
    destruct (Bmult_r prec emax Hp He g1 g1 Fg Fg) as (_ & C2); [rewrite Rabs_pos_eq; lra|].
    fold pf in C1. fold pg in C2. unfold amax, Rmax in Hm. destruct (Rle_dec _ _).
    - pose proof (M2 g1 (proj1 Hm)). lra.
    - pose proof (M2 f1 (proj1 Hm)). lra. }
  assert (S0 : 0 < B2R S) by (pose proof (bpow_gt_0 radix2 (- (2 * k))); lra).
  destruct (Bsqrt_correct prec emax Hp He mode_NE S) as (V1 & V2 & _).
  assert (Fr : is_finite (Bsqrt mode_NE S) = true).
  { rewrite V2. destruct S as [[]|[]| |[]]; simpl in S0, S1; try discriminate; try lra; auto.
    exfalso. assert (F2R (Float radix2 (Zneg m) e) < 0) by (apply F2R_lt_0; reflexivity). simpl in *. lra. }
  set (q := Bsqrt mode_NE S) in *. simpl round_mode in V1.
  assert (RS : bp (- k) <= sqrt (B2R S)).
  { apply Rle_trans with (sqrt (bp (- (2 * k)))); [|apply sqrt_le_1_alt; auto]. rewrite <- BM2, sqrt_square; lra. }
  destruct (relative_error_N_FLT_ex radix2 (3 - emax - prec) prec Hp (fun z => negb (Z.even z)) (sqrt (B2R S))) as (e4 & V3 & V4).
  { rewrite Rabs_pos_eq by apply sqrt_pos. apply Rle_trans with (2 := RS). apply bpow_le. red in Hp; lia. }
  assert (V5 : Rabs e4 <= u). { eapply Rle_trans; [exact V3|]. unfold unit_roundoff. rewrite bpow_plus. simpl (bp 1). lra. }
  destruct (root_bounds u u16 (F0 * F0 + G0 * G0) (B2R S) (B2R q) e4) as (Y1 & Y2); auto; try lra.
  { rewrite V1. exact V4. }
  fold R in Y1, Y2.
  assert (q0 : 0 < B2R q).
  { pose proof (Wn u u16 3). destruct (Rle_or_lt (B2R q) 0); auto. assert (B2R q * (1 + u) ^ 3 <= 0) by nra. lra. }
  (* the quotients *)
  assert (QU : forall (x : fl) X, is_finite x = true -> Rabs (B2R x - X) <= 3 * eta * R -> Rabs X <= R ->
    is_finite (Bdiv mode_NE x q) = true /\ Rabs (B2R (Bdiv mode_NE x q) - X / R) <= gam prec 4 * Rabs (X / R) + 5 * eta).
  { intros x X Fx Hx HX.
    assert (XB : Rabs (B2R x) <= 2 * R).
    { replace (B2R x) with (B2R x - X + X) by ring. eapply Rle_trans; [apply Rabs_triang|].
      pose proof eta_uu. pose proof u16. assert (u * u <= / 256) by nra. nra. }
    assert (W3 : (1 + u) ^ 3 <= 2).
    { pose proof u16 as U6. assert ((1 + u) * (1 + u) <= 5 / 4) by nra. replace ((1 + u) ^ 3) with ((1 + u) * (1 + u) * (1 + u)) by ring. nra. }
    assert (XQ : Rabs (B2R x / B2R q) <= maxf).
    { apply Rle_trans with 4.
      - unfold Rdiv. rewrite Rabs_mult, (Rabs_pos_eq (/ B2R q)) by (apply Rlt_le, Rinv_0_lt_compat; auto).
        apply Rmult_le_reg_r with (B2R q); auto. rewrite Rmult_assoc, Rinv_l, Rmult_1_r by lra. nra.
      - apply Rle_trans with (2 := maxf_bp). change 4 with (bp 2). apply bpow_le. red in Hp; lia. }
    pose proof (Bdiv_no prec emax Hp He x q Fx (Rgt_not_eq _ _ q0) XQ) as FQ. split; auto.
    destruct (Bdiv_fin prec emax Hp He x q FQ Fr) as (_ & _ & e & h & Z1 & Z2 & _ & Z3). rewrite Z3. unfold gam.
    apply (quot_bounds u eta u16 eta_uu); auto. }
  assert (XF : Rabs F0 <= R).
  { unfold R. rewrite <- sqrt_Rsqr_abs. apply sqrt_le_1_alt. unfold Rsqr; nra. }
  assert (XG : Rabs G0 <= R).
  { unfold R. rewrite <- sqrt_Rsqr_abs. apply sqrt_le_1_alt. unfold Rsqr; nra. }
  destruct (QU f1 F0 Ff Hf XF) as (Z1 & Z2). destruct (QU g1 G0 Fg Hg XG) as (Z3 & Z4).
  inversion H; subst cs sn r. repeat split; auto.
Qed.

(** Undoing the scaling *)
Lemma times_S : forall (A : Type) n (g : A -> A) x, times (S n) g x = g (times n g x).
Proof. reflexivity. Qed.
Lemma unscale_up : forall n (r : fl), is_finite r = true ->
  let z := times n (fun r => @rmul F r (@safmx2 F sm)) r in
  (is_finite (z : fl) = true -> B2R (z : fl) = B2R r * bp (Z.of_nat n * k)) /\
  (Rabs (B2R r * bp (Z.of_nat n * k)) <= maxf -> is_finite (z : fl) = true).
Proof.
  induction n; intros r Fr z.
  - change z with r. simpl (bp _). rewrite Rmult_1_r. auto.
  - destruct (IHn r Fr) as (A & B). unfold z. rewrite times_S. set (y := times n (fun r0 : F => @rmul F r0 (@safmx2 F sm)) r) in *. destruct mx as (X1 & X2).
    change (@rmul F) with (@Bmult prec emax Hp He mode_NE).
    assert (EX : (Z.of_nat (S n) * k = Z.of_nat n * k + k)%Z) by lia.
    split.
    + intros H. assert (Fy : is_finite (y : fl) = true).
      { apply (Bmult_fin prec emax Hp He) in H. tauto. }
      destruct (mul_up y (@safmx2 F sm) Fy X2 X1) as (C & _). rewrite (C H), (A Fy), EX, bpow_plus. ring.
    + intros H. assert (Hy : Rabs (B2R r * bp (Z.of_nat n * k)) <= maxf).
      { eapply Rle_trans; [|exact H]. rewrite EX, bpow_plus, <- Rmult_assoc, (Rabs_mult _ (bp k)).
        rewrite <- (Rmult_1_r (Rabs (B2R r * _))) at 1. apply Rmult_le_compat_l; [apply Rabs_pos|].
        rewrite Rabs_pos_eq by apply bpow_ge_0. change 1 with (bp 0). apply bpow_le. lia. }
      specialize (B Hy). destruct (mul_up y (@safmx2 F sm) B X2 X1) as (_ & C). apply C. rewrite (A B).
      rewrite EX, bpow_plus, <- Rmult_assoc in H. auto.
Qed.
Lemma unscale_down : forall n (r : fl), is_finite r = true ->
  let z := times n (fun r => @rmul F r sm) r in
  is_finite (z : fl) = true /\ Rabs (B2R (z : fl) - B2R r * bp (- (Z.of_nat n * k))) <= 2 * eta.
Proof.
  pose proof (eta_pos prec emax) as ET.
  induction n; intros r Fr z.
  - change z with r. simpl (bp _). rewrite Rmult_1_r, Rminus_diag_eq, Rabs_R0 by auto. split; auto. lra.
  - destruct (IHn r Fr) as (A & B). unfold z. rewrite times_S. set (y := times n (fun r0 : F => @rmul F r0 sm) r) in *.
    change (@rmul F) with (@Bmult prec emax Hp He mode_NE).
    destruct (mul_down y sm A sm_finite Esm) as (C1 & C2). split; auto.
    pose proof (rnd_down y) as D. rewrite <- C2 in D.
    replace (- (Z.of_nat (S n) * k))%Z with (- (Z.of_nat n * k) + - k)%Z by lia. rewrite bpow_plus, <- Rmult_assoc.
    set (x := B2R r * _) in *.
    assert (HB : 0 < bp (- k) <= / 2).
    { split; [apply bpow_gt_0|]. change (/ 2) with (bp (-1)). apply bpow_le. lia. }
    replace (B2R (Bmult mode_NE y sm) - x * bp (- k)) with (B2R (Bmult mode_NE y sm) - B2R y * bp (- k) + (B2R y - x) * bp (- k)) by ring.
    eapply Rle_trans; [apply Rabs_triang|]. rewrite Rabs_mult, (Rabs_pos_eq (bp (- k))) by lra.
    assert (Rabs (B2R y - x) * bp (- k) <= 2 * eta * / 2) by (apply Rmult_le_compat; try lra; apply Rabs_pos). lra.
Qed.

(** * The three ranges *)
Lemma radius_pos : forall x y, x <> 0 -> 0 < radius x y.
Proof. intros. apply sqrt_lt_R0. nra. Qed.
Lemma radius_ge : forall x y, Rabs x <= radius x y /\ Rabs y <= radius x y.
Proof. intros. unfold radius. split; rewrite <- sqrt_Rsqr_abs; apply sqrt_le_1_alt; unfold Rsqr; nra. Qed.
Lemma radius_scale : forall x y s, 0 <= s -> radius (x * s) (y * s) = radius x y * s.
Proof.
  intros. unfold radius. replace (x * s * (x * s) + y * s * (y * s)) with ((x * x + y * y) * (s * s)) by ring.
  rewrite sqrt_mult_alt by nra. rewrite sqrt_square; auto.
Qed.
Lemma amax_radius : forall x y : fl, amax x y <= radius (B2R x) (B2R y).
Proof. intros. destruct (radius_ge (B2R x) (B2R y)). apply Rmax_lub; auto. Qed.

Definition near_rotation (f g c s r : fl) : Prop :=
  let R := radius (B2R f) (B2R g) in
  is_finite c = true /\ is_finite s = true /\
  Rabs (B2R c - B2R f / R) <= gam prec 4 * Rabs (B2R f / R) + 5 * eta /\
  Rabs (B2R s - B2R g / R) <= gam prec 4 * Rabs (B2R g / R) + 5 * eta /\
  (is_finite r = true -> Rabs (B2R r - R) <= gam prec 3 * R + 2 * eta) /\
  ((1 + u) ^ 3 * R <= maxf -> is_finite r = true).

Lemma r_near : forall R r, 0 <= R -> R <= r * (1 + u) ^ 3 -> r <= R * (1 + u) ^ 3 -> Rabs (r - R) <= gam prec 3 * R.
Proof.
  intros R r HR H1 H2. unfold gam. pose proof u16. pose proof (Wn u u16 3). set (w := (1 + u) ^ 3) in *.
  assert (1 <= w) by (apply pow_R1_Rle; lra).
  assert (r0 : 0 <= r). { destruct (Rle_or_lt 0 r); auto. assert (r * w < 0) by nra. lra. }
  apply Rabs_le. split; [|lra].
  assert (R / w <= r). { apply Rmult_le_reg_r with w; auto. replace (R / w * w) with R by (field; lra). lra. }
  assert (2 <= / w + w). { apply Rmult_le_reg_r with w; auto. rewrite Rmult_plus_distr_r, Rinv_l by lra. pose proof (Rle_0_sqr (w - 1)). unfold Rsqr in *. lra. }
  assert (R * 2 <= R * (/ w + w)) by (apply Rmult_le_compat_l; auto). unfold Rdiv in *. lra.
Qed.

Lemma scaled_ok : forall fuel (f g c s r : fl), is_finite f = true -> is_finite g = true -> B2R f <> 0 -> 
  @scaled_rotation F sm fuel f g = Some (c, s, r) -> near_rotation f g c s r.
Proof.
  intros fuel f g c s r Ff Fg Nf H. pose proof (eta_pos prec emax) as ET. pose proof u16 as U6. pose proof eta_uu as EU.
  set (R := radius (B2R f) (B2R g)). assert (HR : 0 < R) by (apply radius_pos; auto).
  unfold scaled_rotation in H. destruct (amax_R f g Ff Fg) as (S1 & S2). destruct mx as (X1 & X2).
  rewrite (leb_R _ _ X2 S1), X1, S2, (leb_R _ _ S1 sm_finite), Esm, S2 in H.
  assert (W3 : 1 <= (1 + u) ^ 3) by (apply pow_R1_Rle; lra).
  assert (QS : forall x b, 0 < b -> x * b / (R * b) = x / R) by (intros; field; lra).
  destruct (Rle_bool_spec (bp k) (amax f g)) as [L|L].
  - destruct (@scale_down F sm fuel 0 f g) as [[[cn f1] g1]|] eqn:E; [|discriminate].
    destruct (scale_down_inv fuel 0 f g (B2R f) (B2R g) Ff Fg) with (4 := E) as (n & -> & F1 & G1 & D1 & D2 & D3); auto;
      try (rewrite Rminus_diag_eq, Rabs_R0 by auto; lra).
    set (b := bp (- (Z.of_nat n * k))) in *. assert (b0 : 0 < b) by apply bpow_gt_0.
    assert (RB : 2 / 3 <= R * b).
    { assert (A : forall x X, Rabs (x - X) <= 2 * eta -> 1 <= Rabs x -> 2 / 3 <= Rabs X).
      { intros x X B1 B2. replace x with (x - X + X) in B2 by ring. pose proof (Rabs_triang (x - X) X).
        assert (u * u <= / 256) by nra. lra. }
      unfold R. rewrite <- radius_scale by lra. destruct (radius_ge (B2R f * b) (B2R g * b)) as (Y1 & Y2).
      unfold amax, Rmax in D3. destruct (Rle_dec _ _); [apply Rle_trans with (2 := Y2)|apply Rle_trans with (2 := Y1)]; eapply A; eauto; lra. }
    destruct (@plain_rotation F f1 g1) as [[cs sn] r1] eqn:EP.
    assert (EX : 2 * eta <= 3 * eta * (R * b)) by nra.
    destruct (plain_ok f1 g1 (B2R f * b) (B2R g * b) F1 G1) with (5 := EP) as (Z1 & Z2 & Z3 & Z4 & Z5 & Z6 & Z7); auto;
      try (change (sqrt _) with (radius (B2R f * b) (B2R g * b)); rewrite radius_scale by lra; fold R).
    { split; [|tauto]. apply Rle_trans with 1; [|tauto]. change 1 with (bp 0). apply bpow_le. lia. }
    { apply Rmult_lt_0_compat; auto. }
    { lra. } { lra. }
    change (sqrt _) with (radius (B2R f * b) (B2R g * b)) in *. rewrite radius_scale in * by lra. fold R in Z4, Z5, Z6, Z7.
    rewrite !QS in Z6, Z7 by auto.
    injection H as <- <- <-. unfold near_rotation. fold R. split; auto. split; auto. split; auto. split; auto.
    destruct (unscale_up n r1 Z3) as (V1 & V2). simpl Nat.add.
    assert (BB : b * bp (Z.of_nat n * k) = 1). { unfold b. rewrite <- bpow_plus. replace (- (Z.of_nat n * k) + Z.of_nat n * k)%Z with 0%Z by lia. reflexivity. }
    pose proof (bpow_gt_0 radix2 (Z.of_nat n * k)) as BP. set (b' := bp (Z.of_nat n * k)) in *.
    assert (N1 : R <= B2R r1 * b' * (1 + u) ^ 3).
    { replace R with (R * b * b') by (rewrite Rmult_assoc, BB; ring). replace (B2R r1 * b' * (1 + u) ^ 3) with (B2R r1 * (1 + u) ^ 3 * b') by ring.
      apply Rmult_le_compat_r; lra. }
    assert (N2 : B2R r1 * b' <= R * (1 + u) ^ 3).
    { replace (R * (1 + u) ^ 3) with (R * b * (1 + u) ^ 3 * b') by (replace (R * b * (1 + u) ^ 3 * b') with (R * (1 + u) ^ 3 * (b * b')) by ring; rewrite BB; ring).
      apply Rmult_le_compat_r; lra. }
    assert (N0 : 0 <= B2R r1 * b'). { destruct (Rle_or_lt 0 (B2R r1 * b')); auto. assert (B2R r1 * b' * (1 + u) ^ 3 < 0) by nra. lra. }
    split.
    + intros Fr. eapply Rle_trans; [right; exact (f_equal (fun t => Rabs (t - R)) (V1 Fr))|]. pose proof (r_near R _ (Rlt_le _ _ HR) N1 N2). lra.
    + intros HM. apply V2. rewrite Rabs_pos_eq by auto. lra.
  - destruct (Rle_bool_spec (amax f g) (bp (- k))) as [L2|L2].
    + destruct (@scale_up F sm fuel 0 f g) as [[[cn f1] g1]|] eqn:E; [|discriminate].
      destruct (scale_up_inv fuel 0 f g Ff Fg L2 _ _ _ E) as (n & -> & F1 & G1 & D1 & D2 & D3).
      set (b := bp (Z.of_nat n * k)) in *. assert (b0 : 0 < b) by apply bpow_gt_0.
      destruct (@plain_rotation F f1 g1) as [[cs sn] r1] eqn:EP.
      destruct (plain_ok f1 g1 (B2R f * b) (B2R g * b) F1 G1) with (5 := EP) as (Z1 & Z2 & Z3 & Z4 & Z5 & Z6 & Z7); auto;
        try (change (sqrt _) with (radius (B2R f * b) (B2R g * b)); rewrite radius_scale by lra; fold R);
        try (rewrite Rminus_diag_eq, Rabs_R0 by auto).
      { split; [tauto|]. apply Rle_trans with 1; [tauto|]. change 1 with (bp 0). apply bpow_le. lia. }
      { apply Rmult_lt_0_compat; auto. }
      { apply Rmult_le_pos; [lra|]. apply Rlt_le, Rmult_lt_0_compat; auto. }
      { apply Rmult_le_pos; [lra|]. apply Rlt_le, Rmult_lt_0_compat; auto. }
      change (sqrt _) with (radius (B2R f * b) (B2R g * b)) in *. rewrite radius_scale in * by lra. fold R in Z4, Z5, Z6, Z7.
      rewrite !QS in Z6, Z7 by auto.
      injection H as <- <- <-. unfold near_rotation. fold R. split; auto. split; auto. split; auto. split; auto.
      destruct (unscale_down n r1 Z3) as (V1 & V2). simpl Nat.add. split; auto. intros _.
      assert (BB : b * bp (- (Z.of_nat n * k)) = 1). { unfold b. rewrite <- bpow_plus. replace (Z.of_nat n * k + - (Z.of_nat n * k))%Z with 0%Z by lia. reflexivity. }
      pose proof (bpow_gt_0 radix2 (- (Z.of_nat n * k))) as BP. set (b' := bp (- (Z.of_nat n * k))) in *.
      assert (N1 : R <= B2R r1 * b' * (1 + u) ^ 3).
      { replace R with (R * b * b') by (rewrite Rmult_assoc, BB; ring). replace (B2R r1 * b' * (1 + u) ^ 3) with (B2R r1 * (1 + u) ^ 3 * b') by ring.
        apply Rmult_le_compat_r; lra. }
      assert (N2 : B2R r1 * b' <= R * (1 + u) ^ 3).
      { replace (R * (1 + u) ^ 3) with (R * b * (1 + u) ^ 3 * b') by (replace (R * b * (1 + u) ^ 3 * b') with (R * (1 + u) ^ 3 * (b * b')) by ring; rewrite BB; ring).
        apply Rmult_le_compat_r; lra. }
      pose proof (r_near R _ (Rlt_le _ _ HR) N1 N2) as NR.
      match goal with |- Rabs (?z - R) <= _ => replace (z - R) with (z - B2R r1 * b' + (B2R r1 * b' - R)) by ring end.
      eapply Rle_trans; [apply Rabs_triang|]. eapply Rle_trans; [apply Rplus_le_compat; [exact V2|exact NR]|lra].
    + assert (EP : @plain_rotation F f g = (c, s, r)) by congruence.
      destruct (plain_ok f g (B2R f) (B2R g) Ff Fg) with (5 := EP) as (Z1 & Z2 & Z3 & Z4 & Z5 & Z6 & Z7); auto; try lra;
        change (sqrt _) with R in *; auto;
        try (rewrite Rminus_diag_eq, Rabs_R0 by auto; apply Rmult_le_pos; lra).
      unfold near_rotation. fold R. split; auto. split; auto. split; auto. split; auto. split; auto. intros _.
      pose proof (r_near R _ (Rlt_le _ _ HR) Z4 Z5). lra.
Qed.

Lemma near_flip : forall f g c s r : fl, near_rotation f g c s r ->
  rot_sign (B2R f) (B2R g) = -1 -> accurate_rotation f g (Bopp c) (Bopp s) (Bopp r).
Proof.
  intros f g c s r (A & B & C & D & E & G) HS. unfold accurate_rotation. rewrite HS, !B2R_Bopp, !is_finite_Bopp.
  assert (X : forall x y, Rabs (- x - -1 * y) = Rabs (x - y)) by (intros; rewrite <- Rabs_Ropp; f_equal; ring).
  rewrite !X. repeat split; auto.
Qed.
Lemma near_keep : forall f g c s r : fl, near_rotation f g c s r ->
  rot_sign (B2R f) (B2R g) = 1 -> accurate_rotation f g c s r.
Proof.
  intros f g c s r (A & B & C & D & E & G) HS. unfold accurate_rotation. rewrite HS, !Rmult_1_l. repeat split; auto.
Qed.

Lemma g4 : 0 <= gam prec 4 <= / 3.
Proof.
  unfold gam. pose proof u16 as U. split.
  - assert (1 <= (1 + u) ^ 4) by (apply pow_R1_Rle; lra). lra.
  - assert ((1 + u) * (1 + u) <= 114 / 100) by nra. replace ((1 + u) ^ 4) with ((1 + u) * (1 + u) * ((1 + u) * (1 + u))) by ring. nra.
Qed.
Lemma eta_small : 0 < eta <= / 512.
Proof. split; [apply eta_pos|]. pose proof eta_uu. pose proof u16. assert (u * u <= / 256) by nra. lra. Qed.

(** c has the sign of f when |f| > |g| *)
Lemma sign_c : forall f g c : R, f <> 0 -> Rabs g < Rabs f ->
  Rabs (c - f / radius f g) <= gam prec 4 * Rabs (f / radius f g) + 5 * eta -> (c < 0 <-> f < 0).
Proof.
  intros f g c Nf L H. pose proof (radius_pos f g Nf) as HR. set (R := radius f g) in *.
  assert (B : / 2 <= Rabs (f / R)).
  { unfold Rdiv. rewrite Rabs_mult, (Rabs_pos_eq (/ R)) by (apply Rlt_le, Rinv_0_lt_compat; auto).
    apply Rmult_le_reg_r with R; auto. rewrite (Rmult_assoc (Rabs f)), Rinv_l, Rmult_1_r by lra.
    assert (R <= 2 * Rabs f). 2:lra.
    unfold R, radius. rewrite <- (sqrt_square (2 * Rabs f)) by (pose proof (Rabs_pos f); lra). apply sqrt_le_1_alt.
    assert (f * f = Rabs f * Rabs f) by (rewrite <- Rabs_mult, Rabs_pos_eq; nra).
    assert (g * g = Rabs g * Rabs g) by (rewrite <- Rabs_mult, Rabs_pos_eq; nra). pose proof (Rabs_pos g). nra. }
  pose proof g4. pose proof eta_small. assert (K : Rabs (c - f / R) < Rabs (f / R)) by nra.
  assert (SG : f / R < 0 <-> f < 0).
  { split; intros.
    - destruct (Rlt_or_le f 0); auto. exfalso. assert (0 <= f / R) by (apply Rmult_le_pos; auto; apply Rlt_le, Rinv_0_lt_compat; auto). lra.
    - unfold Rdiv. assert (0 < / R) by (apply Rinv_0_lt_compat; auto). nra. }
  rewrite <- SG. destruct (Rabs_def2 _ _ K). split; intros.
  - destruct (Rlt_or_le (f / R) 0); auto. exfalso. rewrite (Rabs_pos_eq (f / R)) in * by auto. lra.
  - rewrite (Rabs_left (f / R)) in * by auto. lra.
Qed.

Lemma givens_float : forall fuel (f g c s r : fl), is_finite f = true -> is_finite g = true -> B2R f <> 0 -> B2R g <> 0 ->
  @setup_givens_rotation F sm fuel f g = Some (c, s, r) -> accurate_rotation f g c s r.
Proof.
  intros fuel f g c s r Ff Fg Nf Ng H. unfold setup_givens_rotation in H.
  change (@reqb F g (@r0 F)) with (Beqb g (B754_zero false)) in H. change (@reqb F f (@r0 F)) with (Beqb f (B754_zero false)) in H.
  rewrite !Beqb_R in H by auto. simpl (B2R (B754_zero false)) in H.
  destruct (Req_EM_T (B2R g) 0); [contradiction|]. destruct (Req_EM_T (B2R f) 0); [contradiction|].
  destruct (@scaled_rotation F sm fuel f g) as [[[c1 s1] r1]|] eqn:E; [|discriminate].
  pose proof (scaled_ok fuel f g c1 s1 r1 Ff Fg Nf E) as N.
  change (@rltb F) with (@Bltb prec emax) in H. change (@rabs F) with (@Babs prec emax) in H. change (@r0 F) with (B754_zero false : fl) in H.
  pose proof N as (Fc & _ & Ec & _).
  rewrite !Bltb_R in H by (rewrite ?is_finite_Babs; auto). rewrite !B2R_Babs in H. simpl (B2R (B754_zero false)) in H.
  destruct (Rlt_dec (Rabs (B2R g)) (Rabs (B2R f))) as [L|L].
  - pose proof (sign_c (B2R f) (B2R g) (B2R c1) Nf L Ec) as SC.
    destruct (Rlt_dec (B2R c1) 0) as [L2|L2]; simpl in H; injection H as <- <- <-.
    + apply near_flip; auto. unfold rot_sign. destruct (Rlt_dec _ _); [|lra]. destruct (Rlt_dec _ _); auto. tauto.
    + apply near_keep; auto. unfold rot_sign. destruct (Rlt_dec _ _); [|lra]. destruct (Rlt_dec _ _); auto. tauto.
  - simpl in H. injection H as <- <- <-. apply near_keep; auto. unfold rot_sign. destruct (Rlt_dec _ _); auto. lra.
Qed.

(** * Consequences *)
Lemma sg_sq : forall x y, rot_sign x y * rot_sign x y = 1.
Proof. intros. unfold rot_sign. destruct (Rlt_dec _ _); [destruct (Rlt_dec _ _)|]; ring. Qed.
Lemma sg_abs : forall x y z, Rabs (rot_sign x y * z) = Rabs z.
Proof. intros. unfold rot_sign. destruct (Rlt_dec _ _); [destruct (Rlt_dec _ _)|]; rewrite Rabs_mult; rewrite ?Rabs_R1; try ring. rewrite Rabs_left by lra. ring. Qed.
Lemma unit_vec : forall f g, f <> 0 -> let R := radius f g in (f / R) * (f / R) + (g / R) * (g / R) = 1.
Proof.
  intros f g N R. assert (HR : 0 < R) by (apply radius_pos; auto).
  assert (R * R = f * f + g * g) by (apply sqrt_sqrt; nra).
  replace (f / R * (f / R) + g / R * (g / R)) with ((f * f + g * g) / (R * R)) by (field; lra). rewrite <- H. field. lra.
Qed.

Lemma sq_err : forall c x a b, Rabs (c - x) <= a * Rabs x + b -> 0 <= a <= / 3 -> 0 < b <= / 100 -> Rabs x <= 1 ->
  Rabs (c * c - x * x) <= (a * (2 + a)) * (x * x) + (8 / 3 * Rabs x + / 100) * b.
Proof.
  intros c x a b H Ha Hb Hx. pose proof (Rabs_pos x) as X0.
  replace (c * c - x * x) with ((c - x) * (c - x) + 2 * (x * (c - x))) by ring.
  eapply Rle_trans; [apply Rabs_triang|]. rewrite !Rabs_mult, (Rabs_pos_eq 2) by lra.
  assert (E : x * x = Rabs x * Rabs x) by (rewrite <- Rabs_mult, Rabs_pos_eq; nra). rewrite E.
  set (X := Rabs x) in *. set (d := Rabs (c - x)) in *. assert (0 <= d) by apply Rabs_pos.
  assert (d * d <= (a * X + b) * (a * X + b)) by (apply Rmult_le_compat; auto).
  assert (X * d <= X * (a * X + b)) by (apply Rmult_le_compat_l; auto).
  assert (a * X * b <= / 3 * X * b) by (apply Rmult_le_compat_r; [lra|]; apply Rmult_le_compat_r; lra).
  assert (b * b <= / 100 * b) by (apply Rmult_le_compat_r; lra). nra.
Qed.

Lemma sum_abs_unit : forall x y, x * x + y * y = 1 -> Rabs x + Rabs y <= 3 / 2.
Proof.
  intros x y H. assert (x * x = Rabs x * Rabs x) by (rewrite <- Rabs_mult, Rabs_pos_eq; nra).
  assert (y * y = Rabs y * Rabs y) by (rewrite <- Rabs_mult, Rabs_pos_eq; nra). pose proof (Rabs_pos x). pose proof (Rabs_pos y).
  set (a := Rabs x) in *. set (b := Rabs y) in *. assert ((a + b) * (a + b) <= 9 / 4) by (pose proof (Rle_0_sqr (a - b)); unfold Rsqr in *; nra). nra.
Qed.

Lemma accurate_orthogonal : forall f g c s r : fl, B2R f <> 0 -> accurate_rotation f g c s r ->
  Rabs (B2R c * B2R c + B2R s * B2R s - 1) <= gam prec 8 + 21 * eta.
Proof.
  intros f g c s r Nf (_ & _ & C & S & _). pose proof (unit_vec (B2R f) (B2R g) Nf) as UV. cbv zeta in UV.
  set (x := B2R f / _) in *. set (y := B2R g / _) in *. pose proof (sg_sq (B2R f) (B2R g)) as SS.
  rewrite <- (sg_abs (B2R f) (B2R g) x) in C. rewrite <- (sg_abs (B2R f) (B2R g) y) in S. 
  pose proof (sg_abs (B2R f) (B2R g)) as SA. set (sg := rot_sign _ _) in *.
  pose proof g4 as G. pose proof eta_small as ES.
  assert (Rabs x <= 1) by (apply Rsqr_incr_0_var; [rewrite <- Rsqr_abs; unfold Rsqr; nra|lra]).
  assert (Rabs y <= 1) by (apply Rsqr_incr_0_var; [rewrite <- Rsqr_abs; unfold Rsqr; nra|lra]).
  apply sq_err in C; auto; [|lra|rewrite SA; lra]. apply sq_err in S; auto; [|lra|rewrite SA; lra].
  assert (E1 : sg * x * (sg * x) = x * x) by (replace (sg * x * (sg * x)) with (sg * sg * (x * x)) by ring; rewrite SS; ring).
  assert (E2 : sg * y * (sg * y) = y * y) by (replace (sg * y * (sg * y)) with (sg * sg * (y * y)) by ring; rewrite SS; ring).
  rewrite E1, SA in C. rewrite E2, SA in S.
  assert (G8 : gam prec 8 = gam prec 4 * (2 + gam prec 4)) by (unfold gam; ring).
  pose proof (sum_abs_unit x y UV) as SU.
  replace (B2R c * B2R c + B2R s * B2R s - 1) with ((B2R c * B2R c - x * x) + (B2R s * B2R s - y * y)) by lra.
  eapply Rle_trans; [apply Rabs_triang|]. eapply Rle_trans; [apply Rplus_le_compat; eassumption|]. rewrite G8.
  set (a := gam prec 4 * (2 + gam prec 4)). 
  replace (a * (x * x) + (8 / 3 * Rabs x + / 100) * (5 * eta) + (a * (y * y) + (8 / 3 * Rabs y + / 100) * (5 * eta)))
    with (a * (x * x + y * y) + (8 / 3 * (Rabs x + Rabs y) + 2 / 100) * (5 * eta)) by field.
  rewrite UV. nra.
Qed.

Lemma accurate_rotates : forall f g c s r : fl, B2R f <> 0 -> accurate_rotation f g c s r ->
  let R := radius (B2R f) (B2R g) in
  Rabs (B2R c * B2R g - B2R s * B2R f) <= (gam prec 4 + 8 * eta) * R /\
  (is_finite r = true -> Rabs (B2R c * B2R f + B2R s * B2R g - B2R r) <= (gam prec 4 + gam prec 3 + 8 * eta) * R + 2 * eta).
Proof.
  intros f g c s r Nf (_ & _ & C & S & HR & _) R. pose proof (unit_vec (B2R f) (B2R g) Nf) as UV. cbv zeta in UV.
  pose proof (radius_pos (B2R f) (B2R g) Nf) as R0. fold R in UV, C, S, HR, R0.
  set (x := B2R f / R) in *. set (y := B2R g / R) in *.
  assert (Ef : B2R f = x * R) by (unfold x; field; lra). assert (Eg : B2R g = y * R) by (unfold y; field; lra).
  set (sg := rot_sign _ _) in *. pose proof g4 as G. pose proof eta_small as ES.
  pose proof (sum_abs_unit x y UV) as SU.
  assert (X2 : x * x = Rabs x * Rabs x) by (rewrite <- Rabs_mult, Rabs_pos_eq; nra).
  assert (Y2 : y * y = Rabs y * Rabs y) by (rewrite <- Rabs_mult, Rabs_pos_eq; nra).
  pose proof (Rabs_pos x) as X0. pose proof (Rabs_pos y) as Y0.
  assert (A : forall p q, Rabs p <= gam prec 4 * Rabs x + 5 * eta -> Rabs q <= gam prec 4 * Rabs y + 5 * eta ->
    Rabs (p * (x * R)) + Rabs (q * (y * R)) <= (gam prec 4 + 8 * eta) * R /\ Rabs (p * (y * R)) + Rabs (q * (x * R)) <= (gam prec 4 + 8 * eta) * R).
  { intros p q Hp0 Hq. rewrite !Rabs_mult, (Rabs_pos_eq R) by lra.
    assert (forall t z a, Rabs t <= a -> 0 <= z -> Rabs t * (z * R) <= a * (z * R)).
    { intros. apply Rmult_le_compat_r; auto. apply Rmult_le_pos; lra. }
    pose proof (H p (Rabs x) _ Hp0 X0). pose proof (H p (Rabs y) _ Hp0 Y0). pose proof (H q (Rabs x) _ Hq X0). pose proof (H q (Rabs y) _ Hq Y0).
    set (X := Rabs x) in *. set (Y := Rabs y) in *. set (a := gam prec 4) in *.
    assert (2 * (X * Y) <= 1) by (pose proof (Rle_0_sqr (X - Y)); unfold Rsqr in *; nra).
    assert (T : 5 * eta * (X + Y) * R <= 8 * eta * R) by (apply Rmult_le_compat_r; [lra|nra]).
    split.
    - replace (X * X + Y * Y) with 1 in * by lra.
      apply Rle_trans with (a * (X * X + Y * Y) * R + 5 * eta * (X + Y) * R); [lra|]. replace (X * X + Y * Y) with 1 by lra. lra.
    - assert (a * (2 * (X * Y)) * R <= a * 1 * R) by (apply Rmult_le_compat_r; [lra|]; apply Rmult_le_compat_l; lra).
      lra. }
  split.
  - replace (B2R c * B2R g - B2R s * B2R f) with ((B2R c - sg * x) * (y * R) + - ((B2R s - sg * y) * (x * R))) by (rewrite Ef, Eg; ring).
    eapply Rle_trans; [apply Rabs_triang|]. rewrite Rabs_Ropp. destruct (A (B2R c - sg * x) (B2R s - sg * y)) as (_ & B); auto.
  - intros Fr. specialize (HR Fr).
    assert (XY : B2R c * B2R f + B2R s * B2R g - B2R r = ((B2R c - sg * x) * (x * R) + (B2R s - sg * y) * (y * R)) + - (B2R r - sg * R)).
    { replace (sg * R) with (sg * (x * x + y * y) * R) by (rewrite UV; ring). rewrite Ef, Eg. ring. }
    rewrite XY. eapply Rle_trans; [apply Rabs_triang|]. rewrite Rabs_Ropp.
    eapply Rle_trans; [apply Rplus_le_compat; [apply Rabs_triang|exact HR]|]. destruct (A (B2R c - sg * x) (B2R s - sg * y)) as (B & _); auto. lra.
Qed.

Lemma exact_1 : forall (f g c s r : fl) fuel, is_finite f = true -> is_finite g = true -> B2R f = 0 \/ B2R g = 0 ->
  @setup_givens_rotation F sm fuel f g = Some (c, s, r) ->
  (is_finite c = true /\ is_finite s = true /\ is_finite r = true) /\
  B2R c * B2R c + B2R s * B2R s = 1 /\ B2R c * B2R g - B2R s * B2R f = 0 /\ B2R c * B2R f + B2R s * B2R g = B2R r.
Proof.
  intros f g c s r fuel Ff Fg Z H. unfold setup_givens_rotation in H.
  change (@reqb F g (@r0 F)) with (Beqb g (B754_zero false)) in H. change (@reqb F f (@r0 F)) with (Beqb f (B754_zero false)) in H.
  rewrite !Beqb_R in H by auto. simpl (B2R (B754_zero false)) in H.
  destruct (Req_EM_T (B2R g) 0) as [E|E].
  - injection H as <- <- <-. change (@r1 F) with (@Bone prec emax Hp He). rewrite one_R, is_finite_Bone, E. simpl. repeat split; auto; ring.
  - destruct (Req_EM_T (B2R f) 0) as [E2|E2]; [|tauto].
    injection H as <- <- <-. change (@r1 F) with (@Bone prec emax Hp He). rewrite one_R, is_finite_Bone, E2. simpl. repeat split; auto; ring.
Qed.

Lemma givens_orthogonal : forall fuel (f g c s r : fl), is_finite f = true -> is_finite g = true ->
  @setup_givens_rotation F sm fuel f g = Some (c, s, r) ->
  let R := radius (B2R f) (B2R g) in
  Rabs (B2R c * B2R c + B2R s * B2R s - 1) <= gam prec 8 + 21 * eta /\
  Rabs (B2R c * B2R g - B2R s * B2R f) <= (gam prec 4 + 8 * eta) * R /\
  (is_finite r = true -> Rabs (B2R c * B2R f + B2R s * B2R g - B2R r) <= (gam prec 4 + gam prec 3 + 8 * eta) * R + 2 * eta).
Proof.
  intros fuel f g c s r Ff Fg H R.
  destruct (Req_dec (B2R f) 0) as [Zf|Nf]; [|destruct (Req_dec (B2R g) 0) as [Zg|Ng]].
  3:{ pose proof (givens_float fuel f g c s r Ff Fg Nf Ng H) as A. split; [exact (accurate_orthogonal f g c s r Nf A)|exact (accurate_rotates f g c s r Nf A)]. }
  all: destruct (exact_1 f g c s r fuel Ff Fg) as (_ & E1 & E2 & E3); auto; rewrite E1, E2, E3.
  all: assert (0 <= R) by apply sqrt_pos; pose proof g4; pose proof eta_small.
  all: assert (1 <= (1 + u) ^ 8) by (apply pow_R1_Rle; pose proof u16; lra); assert (1 <= (1 + u) ^ 3) by (apply pow_R1_Rle; pose proof u16; lra).
  all: rewrite !Rminus_diag_eq, Rabs_R0 by auto; unfold gam at 1 4; repeat split; intros; try nra.
Qed.
End Float.

(** * Applying a rotation *)
From Verif Require Import Mem Scalar View Spec SpecF2 Blas1 PfBlas1 PfApprox Wp.
Section Apply.
Context (prec emax : Z) (Hp : Prec_gt_0 prec) (He : Prec_lt_emax prec emax).
Notation fl := (binary_float prec emax).
Notation eta := (half_tiny prec emax).
Notation O := (ieee_ops prec emax Hp He).

Lemma apply_float : forall (m : mem O) x y (f g : nat -> fl) (c s : fl),
  vext x = vext y -> vec_holds (O := O) m x f -> vec_holds (O := O) m y g -> vwritable x -> vwritable y ->
  disjoint (vcells x) (vcells y) ->
  succeeds (@apply_givens_rotation O x y c s) m (fun _ m' =>
    exists f' g' : nat -> fl, vec_holds (O := O) m' x f' /\ vec_holds (O := O) m' y g' /\
    (forall i, (i < vext x)%nat ->
       approximates 2 (is_finite c = true /\ is_finite s = true /\ is_finite (f i) = true /\ is_finite (g i) = true)
         (B2R c * B2R (f i) + B2R s * B2R (g i)) (Rabs (B2R c) * Rabs (B2R (f i)) + Rabs (B2R s) * Rabs (B2R (g i))) (2 * eta) (f' i) /\
       approximates 2 (is_finite c = true /\ is_finite s = true /\ is_finite (f i) = true /\ is_finite (g i) = true)
         (B2R c * B2R (g i) - B2R s * B2R (f i)) (Rabs (B2R c) * Rabs (B2R (g i)) + Rabs (B2R s) * Rabs (B2R (f i))) (2 * eta) (g' i)) /\
    changes_only m m' (fun a => vcells x a \/ vcells y a)).
Proof.
  intros m x y f g c s E Hx Hy Wx Wy D.
  destruct (@apply_givens_ok O m x y f g c s E Hx Hy Wx Wy D) as (r & m' & H1 & H2 & H3 & H4).
  exists r, m'. split; auto. eexists _, _. split; [exact H2|]. split; [exact H3|]. split; auto.
  intros i Hi. split.
  - pose proof (appr_plus prec emax Hp He _ _ _ _ _ _ _ _ _ _ _ (appr_prod prec emax Hp He c (f i)) (appr_prod prec emax Hp He s (g i))) as K.
    replace (eta + eta) with (2 * eta) in K by ring. eapply appr_iff in K; [exact (ap_spec _ _ _ _ _ _ _ _ K)|]. tauto.
  - pose proof (appr_minus prec emax Hp He _ _ _ _ _ _ _ _ _ _ _ (appr_prod prec emax Hp He c (g i)) (appr_prod prec emax Hp He s (f i))) as K.
    replace (eta + eta) with (2 * eta) in K by ring. eapply appr_iff in K; [exact (ap_spec _ _ _ _ _ _ _ _ K)|]. tauto.
Qed.
End Apply.

(** Floating-point behaviour of the sums of squares and norms. *)
From Coq Require Import List Arith ZArith Reals Lia Lra Bool Psatz.
From Flocq Require Import Core.Core IEEE754.BinarySingleNaN.
From Verif Require Import Mem Scalar View Spec SpecR SpecF Norm Ieee Wp PfNorm PfIeee.
Local Open Scope R_scope.

Section Real.
(** Pure real arithmetic of one step. *)
Variables u eta : R.
Hypothesis Hu : 0 < u <= / 2.
Hypothesis Heta : 0 < eta.
Let r := 1 + u.

Lemma mul_err : forall p q a b, Rabs (p - 1) <= a - 1 -> Rabs (q - 1) <= b - 1 -> 1 <= a -> 1 <= b -> Rabs (p * q - 1) <= a * b - 1.
Proof.
  intros p q a b H1 H2 Ha Hb. apply Rabs_le_inv in H1, H2. apply Rabs_le. split; nra.
Qed.
Lemma one_err : forall e, Rabs e <= u -> Rabs ((1 + e) - 1) <= r - 1.
Proof. intros e H. unfold r. replace (1 + e - 1) with e by ring. replace (1 + u - 1) with u by ring. auto. Qed.
Lemma pow5_ge : forall j k, (j <= k)%nat -> r ^ j <= r ^ k.
Proof. intros. apply Rle_pow; auto. unfold r; lra. Qed.
Lemma rpow1 : forall k, 1 <= r ^ k.
Proof. intros. apply pow_R1_Rle. unfold r; lra. Qed.

Lemma qh2 : forall q qh e1 h1, 0 <= q <= 1 -> 0 <= qh <= 1 -> Rabs e1 <= u -> Rabs h1 <= eta -> qh = q * (1 + e1) + h1 ->
  Rabs (qh * qh - q * q * ((1 + e1) * (1 + e1))) <= 5 / 2 * eta.
Proof.
  intros q qh e1 h1 Hq Hqh He1 Hh1 E.
  replace (qh * qh - q * q * ((1 + e1) * (1 + e1))) with (h1 * (qh + q * (1 + e1))) by (rewrite E; ring).
  rewrite Rabs_mult. apply Rabs_le_inv in He1.
  assert (Rabs (qh + q * (1 + e1)) <= 5 / 2) by (apply Rabs_le; split; nra).
  pose proof (Rabs_pos h1). pose proof (Rabs_pos (qh + q * (1 + e1))). nra.
Qed.

(** New scale: s' = 1 + s q^2. *)
Lemma caseA : forall N s q qh t t2 s' e1 e2 e3 e4 h1 h2 h3,
  1 <= s <= N -> 0 <= q <= 1 -> 0 <= qh <= 1 ->
  Rabs e1 <= u -> Rabs e2 <= u -> Rabs e3 <= u -> Rabs e4 <= u -> Rabs h1 <= eta -> Rabs h2 <= eta -> Rabs h3 <= eta ->
  qh = q * (1 + e1) + h1 -> t = s * qh * (1 + e2) + h2 -> t2 = t * qh * (1 + e3) + h3 -> s' = (1 + t2) * (1 + e4) ->
  Rabs (s' - (1 + s * (q * q))) <= (r ^ 5 - 1) * (1 + s * (q * q)) + 16 * N * eta.
Proof.
  intros N s q qh t t2 s' e1 e2 e3 e4 h1 h2 h3 Hs Hq Hqh E1 E2 E3 E4 H1 H2 H3 Eq Et Et2 Es'.
  pose proof (qh2 q qh e1 h1 Hq Hqh E1 H1 Eq) as K.
  set (d := qh * qh - q * q * ((1 + e1) * (1 + e1))) in *.
  set (P := (1 + e1) * (1 + e1) * (1 + e2) * (1 + e3)).
  assert (HP : Rabs (P - 1) <= r ^ 4 - 1).
  { replace (r ^ 4) with (r * r * r * r) by ring. unfold P.
    assert (1 <= r) by (unfold r; lra).
    repeat (apply mul_err; [|apply one_err; auto|nra|nra]). apply one_err; auto. }
  set (R0 := s * d * ((1 + e2) * (1 + e3)) + h2 * qh * (1 + e3) + h3).
  assert (ER : t2 = s * (q * q) * P + R0).
  { unfold R0, P. rewrite Et2, Et. assert (qh * qh = q * q * ((1 + e1) * (1 + e1)) + d) as Ed by (unfold d; ring).
    replace ((s * qh * (1 + e2) + h2) * qh * (1 + e3) + h3) with (s * (qh * qh) * ((1 + e2) * (1 + e3)) + h2 * qh * (1 + e3) + h3) by ring.
    rewrite Ed. ring. }
  assert (HR : Rabs R0 <= 9 * N * eta).
  { unfold R0. eapply Rle_trans; [apply Rabs_triang|]. eapply Rle_trans; [apply Rplus_le_compat_r, Rabs_triang|].
    rewrite !Rabs_mult. rewrite (Rabs_pos_eq s), (Rabs_pos_eq qh) by lra.
    apply Rabs_le_inv in E2, E3. rewrite (Rabs_pos_eq (1 + e2)), (Rabs_pos_eq (1 + e3)) by lra.
    pose proof (Rabs_pos d). pose proof (Rabs_pos h2). pose proof (Rabs_pos h3).
    assert (s * Rabs d <= N * (5 / 2 * eta)) by (apply Rmult_le_compat; lra).
    assert ((1 + e2) * (1 + e3) <= 9 / 4) by nra.
    assert (0 <= (1 + e2) * (1 + e3)) by nra.
    assert (s * Rabs d * ((1 + e2) * (1 + e3)) <= N * (5 / 2 * eta) * (9 / 4)) by (apply Rmult_le_compat; auto; nra).
    assert (Rabs h2 * qh <= eta) by nra. assert (Rabs h2 * qh * (1 + e3) <= eta * (3 / 2)) by (apply Rmult_le_compat; nra).
    assert (eta <= N * eta) by nra. nra. }
  replace (s' - (1 + s * (q * q))) with (e4 + s * (q * q) * (P * (1 + e4) - 1) + R0 * (1 + e4))
    by (rewrite Es', ER; ring).
  assert (HP5 : Rabs (P * (1 + e4) - 1) <= r ^ 5 - 1).
  { replace (r ^ 5) with (r ^ 4 * r) by ring. apply mul_err; auto; [apply one_err; auto|apply rpow1|unfold r; lra]. }
  eapply Rle_trans; [apply Rabs_triang|]. eapply Rle_trans; [apply Rplus_le_compat_r, Rabs_triang|].
  rewrite !Rabs_mult. rewrite (Rabs_pos_eq s), (Rabs_pos_eq q) by lra.
  assert (u <= r ^ 5 - 1) by (pose proof (pow5_ge 1 5 ltac:(lia)) as W; rewrite pow_1 in W; unfold r in *; lra).
  assert (0 <= s * (q * q)) by nra.
  assert (s * (q * q) * Rabs (P * (1 + e4) - 1) <= s * (q * q) * (r ^ 5 - 1)) by (apply Rmult_le_compat_l; auto).
  assert (Rabs R0 * Rabs (1 + e4) <= 9 * N * eta * (3 / 2)).
  { apply Rmult_le_compat; auto using Rabs_pos. apply Rabs_le_inv in E4. rewrite Rabs_pos_eq; lra. }
  assert (0 < N * eta) by nra. lra.
Qed.
(** Same scale: s' = s + q^2. *)
Lemma caseB : forall N s q qh w s' e1 e2 e3 h1 h2,
  1 <= s <= N -> 0 <= q <= 1 -> 0 <= qh <= 1 ->
  Rabs e1 <= u -> Rabs e2 <= u -> Rabs e3 <= u -> Rabs h1 <= eta -> Rabs h2 <= eta ->
  qh = q * (1 + e1) + h1 -> w = qh * qh * (1 + e2) + h2 -> s' = (s + w) * (1 + e3) ->
  Rabs (s' - (s + q * q)) <= (r ^ 5 - 1) * (s + q * q) + 16 * N * eta.
Proof.
  intros N s q qh w s' e1 e2 e3 h1 h2 Hs Hq Hqh E1 E2 E3 H1 H2 Eq Ew Es'.
  pose proof (qh2 q qh e1 h1 Hq Hqh E1 H1 Eq) as K.
  set (d := qh * qh - q * q * ((1 + e1) * (1 + e1))) in *.
  set (P := (1 + e1) * (1 + e1) * (1 + e2)).
  assert (Hr1 : 1 <= r) by (unfold r; lra).
  assert (HP : Rabs (P * (1 + e3) - 1) <= r ^ 5 - 1).
  { apply Rle_trans with (r ^ 4 - 1); [|pose proof (pow5_ge 4 5 ltac:(lia)); lra].
    replace (r ^ 4) with (r * r * r * r) by ring. unfold P.
    repeat (apply mul_err; [|apply one_err; auto|nra|nra]). apply one_err; auto. }
  set (R0 := d * (1 + e2) + h2).
  assert (ER : w = q * q * P + R0).
  { unfold R0, P. rewrite Ew. assert (qh * qh = q * q * ((1 + e1) * (1 + e1)) + d) as Ed by (unfold d; ring). rewrite Ed. ring. }
  assert (HR : Rabs R0 <= 5 * eta).
  { unfold R0. eapply Rle_trans; [apply Rabs_triang|]. rewrite Rabs_mult. apply Rabs_le_inv in E2.
    rewrite (Rabs_pos_eq (1 + e2)) by lra. pose proof (Rabs_pos d). nra. }
  replace (s' - (s + q * q)) with (s * e3 + q * q * (P * (1 + e3) - 1) + R0 * (1 + e3)) by (rewrite Es', ER; ring).
  eapply Rle_trans; [apply Rabs_triang|]. eapply Rle_trans; [apply Rplus_le_compat_r, Rabs_triang|].
  rewrite !Rabs_mult. rewrite (Rabs_pos_eq s), (Rabs_pos_eq q) by lra.
  assert (u <= r ^ 5 - 1) by (pose proof (pow5_ge 1 5 ltac:(lia)) as W; rewrite pow_1 in W; unfold r in *; lra).
  assert (s * Rabs e3 <= s * (r ^ 5 - 1)) by (apply Rmult_le_compat_l; lra).
  assert (q * q * Rabs (P * (1 + e3) - 1) <= q * q * (r ^ 5 - 1)) by (apply Rmult_le_compat_l; auto; nra).
  assert (Rabs R0 * Rabs (1 + e3) <= 5 * eta * (3 / 2)).
  { apply Rmult_le_compat; auto using Rabs_pos. apply Rabs_le_inv in E3. rewrite Rabs_pos_eq; lra. }
  assert (eta <= N * eta) by nra. nra.
Qed.
(** Accumulation of the error over the steps. *)
Lemma accum : forall k A V S X a2 V', 0 <= A -> 0 <= S -> 0 <= a2 -> 0 <= X ->
  Rabs (V - S) <= (r ^ (5 * k) - 1) * S + INR k * A * r ^ (5 * k) * X ->
  forall X', X <= X' -> 0 <= V ->
  Rabs (V' - (V + a2)) <= (r ^ 5 - 1) * (V + a2) + A * X' ->
  Rabs (V' - (S + a2)) <= (r ^ (5 * Datatypes.S k) - 1) * (S + a2) + INR (Datatypes.S k) * A * r ^ (5 * Datatypes.S k) * X'.
Proof.
  intros k A V S X a2 V' HA HS Ha HX H X' HX' HV K.
  replace (5 * Datatypes.S k)%nat with (5 + 5 * k)%nat by lia. rewrite pow_add.
  set (p := r ^ 5) in *. set (w := r ^ (5 * k)) in *.
  assert (1 <= p) by apply rpow1. assert (1 <= w) by apply rpow1.
  rewrite S_INR. pose proof (pos_INR k) as Hk.
  replace (V' - (S + a2)) with ((V' - (V + a2)) + (V - S)) by ring.
  eapply Rle_trans; [apply Rabs_triang|].
  assert (V <= S + Rabs (V - S)) by (pose proof (Rle_abs (V - S)); lra).
  assert (Rabs (V' - (V + a2)) <= (p - 1) * (S + a2) + (p - 1) * Rabs (V - S) + A * X') by nra.
  assert (p * Rabs (V - S) <= p * ((w - 1) * S + INR k * A * w * X)) by (apply Rmult_le_compat_l; lra).
  assert (INR k * A * w * X <= INR k * A * w * X') by (apply Rmult_le_compat_l; auto; repeat apply Rmult_le_pos; lra).
  assert (p * (INR k * A * w * X) <= p * (INR k * A * w * X')) by (apply Rmult_le_compat_l; lra).
  assert (0 <= A * X') by (apply Rmult_le_pos; lra).
  assert (1 <= p * w) by nra. set (B := A * X') in *.
  assert (B <= p * w * B) by nra.
  assert (0 <= (w - 1) * (p * a2)) by (apply Rmult_le_pos; [lra|apply Rmult_le_pos; lra]).
  replace ((INR k + 1) * A * (p * w) * X') with (p * (INR k * A * w * X') + p * w * B) by (unfold B; ring).
  replace ((p * w - 1) * (S + a2)) with ((p - 1) * (S + a2) + p * ((w - 1) * S) + (w - 1) * (p * a2)) by ring.
  lra.
Qed.
Lemma sqrt_err : forall x, 0 <= x -> Rabs (sqrt x - 1) <= Rabs (x - 1).
Proof.
  intros x Hx. pose proof (sqrt_pos x) as H0. pose proof (sqrt_sqrt x Hx) as H1.
  replace (x - 1) with ((sqrt x - 1) * (sqrt x + 1)) by (transitivity (sqrt x * sqrt x - 1); [ring|rewrite H1; ring]).
  rewrite Rabs_mult. rewrite (Rabs_pos_eq (sqrt x + 1)) by lra. pose proof (Rabs_pos (sqrt x - 1)). nra.
Qed.
Lemma sqrt_rel : forall V S eps, 0 <= V -> 0 <= S -> 0 <= eps -> Rabs (V - S) <= eps * S -> Rabs (sqrt V - sqrt S) <= eps * sqrt S.
Proof.
  intros V S eps HV HS He H. destruct (Req_dec S 0) as [->|N].
  - rewrite Rmult_0_r in H. assert (V = 0) as -> by (apply Rabs_le_inv in H; lra). replace (sqrt 0 - sqrt 0) with 0 by ring. rewrite Rabs_R0, sqrt_0; lra.
  - assert (0 < S) by lra. pose proof (sqrt_lt_R0 S H0) as HS0.
    assert (V = S * (V / S)) as EV by (field; lra). assert (0 <= V / S) by (apply Rmult_le_pos; auto; left; apply Rinv_0_lt_compat; lra).
    rewrite EV at 1. rewrite sqrt_mult by lra.
    replace (sqrt S * sqrt (V / S) - sqrt S) with (sqrt S * (sqrt (V / S) - 1)) by ring.
    rewrite Rabs_mult, (Rabs_pos_eq (sqrt S)) by lra. rewrite Rmult_comm. apply Rmult_le_compat_r; [lra|].
    eapply Rle_trans; [apply sqrt_err; auto|]. replace (V / S - 1) with ((V - S) / S) by (field; lra).
    unfold Rdiv. rewrite Rabs_mult, (Rabs_pos_eq (/ S)) by (left; apply Rinv_0_lt_compat; lra).
    apply Rmult_le_reg_r with S; auto. rewrite Rmult_assoc, Rinv_l by lra. lra.
Qed.
End Real.

Section Ssq.
Context (prec emax : Z) (Hp : Prec_gt_0 prec) (He : Prec_lt_emax prec emax).
Notation fl := (binary_float prec emax).
Notation F := (ieee_r prec emax Hp He).
Notation u := (unit_roundoff prec).
Notation eta := (half_tiny prec emax).
Notation maxf := (max_finite prec emax).
Notation rnd := (round radix2 (FLT_exp (3 - emax - prec) prec) ZnearestE).

Lemma u_range : 0 < u <= / 2.
Proof. split; [apply u_pos|apply u_le1; auto]. Qed.
Lemma v_le_u : forall e, Rabs e <= v prec -> Rabs e <= u.
Proof. intros e H. destruct (v_bounds prec) as (_ & K & _). lra. Qed.
Lemma rnd_le : forall x (y : fl), x <= B2R y -> rnd x <= B2R y.
Proof. intros. apply round_le_generic; auto with typeclass_instances. apply fmt. Qed.
Lemma rnd_ge : forall x (y : fl), B2R y <= x -> B2R y <= rnd x.
Proof. intros. apply round_ge_generic; auto with typeclass_instances. apply fmt. Qed.
Lemma one_R : B2R (@Bone prec emax Hp He) = 1. Proof. apply Bone_correct. Qed.
Lemma one_fin : is_finite (@Bone prec emax Hp He) = true. Proof. apply is_finite_Bone. Qed.
Lemma rnd_01 : forall x, 0 <= x <= 1 -> 0 <= rnd x <= 1.
Proof.
  intros x [H0 H1]. split.
  - change 0 with (B2R (B754_zero false : fl)). apply rnd_ge; auto.
  - rewrite <- one_R. apply rnd_le. rewrite one_R; auto.
Qed.
Lemma Bmult_r : forall x y : fl, is_finite x = true -> is_finite y = true -> Rabs (B2R x * B2R y) <= maxf ->
  is_finite (Bmult mode_NE x y) = true /\ B2R (Bmult mode_NE x y) = rnd (B2R x * B2R y).
Proof.
  intros x y Fx Fy H. pose proof (Bmult_correct prec emax Hp He mode_NE x y) as K. simpl round_mode in K. rewrite (no_overflow prec emax Hp He) in K; auto.
  destruct K as (K1 & -> & _). rewrite Fx, Fy; auto.
Qed.
Lemma Bdiv_r : forall x y : fl, is_finite x = true -> B2R y <> 0 -> Rabs (B2R x / B2R y) <= maxf ->
  is_finite (Bdiv mode_NE x y) = true /\ B2R (Bdiv mode_NE x y) = rnd (B2R x / B2R y).
Proof.
  intros x y Fx Ny H. pose proof (Bdiv_correct prec emax Hp He mode_NE x y Ny) as K. simpl round_mode in K. rewrite (no_overflow prec emax Hp He) in K; auto.
  destruct K as (K1 & -> & _). auto.
Qed.
Lemma Bplus_r : forall x y : fl, is_finite x = true -> is_finite y = true -> Rabs (B2R x + B2R y) <= maxf ->
  is_finite (Bplus mode_NE x y) = true /\ B2R (Bplus mode_NE x y) = rnd (B2R x + B2R y) /\
  exists e, Rabs e <= u /\ B2R (Bplus mode_NE x y) = (B2R x + B2R y) * (1 + e).
Proof.
  intros x y Fx Fy H. pose proof (Bplus_no prec emax Hp He x y Fx Fy H) as K. split; auto.
  destruct (Bplus_fin prec emax Hp He x y K) as (_ & _ & K1 & e & K2 & K3). split; auto. exists e; split; auto using v_le_u.
Qed.
Lemma rnd_u : forall z, exists e h, Rabs e <= u /\ Rabs h <= eta /\ e * h = 0 /\ rnd z = z * (1 + e) + h.
Proof. intros z. destruct (rnd_ex prec emax Hp z) as (e & h & K1 & K2 & K3 & K4). exists e, h. auto using v_le_u. Qed.
Lemma eta_u : eta <= u.
Proof.
  red in Hp, He. unfold half_tiny, unit_roundoff. change (/ 2) with (bpow radix2 (-1)). rewrite <- bpow_plus. apply bpow_le. lia.
Qed.

Lemma Bltb_R : forall x y : fl, is_finite x = true -> is_finite y = true -> Bltb x y = if Rlt_dec (B2R x) (B2R y) then true else false.
Proof.
  intros x y Fx Fy. rewrite (Bltb_correct prec emax x y Fx Fy). destruct (Rlt_dec (B2R x) (B2R y)).
  - apply Rlt_bool_true; auto. - apply Rlt_bool_false; lra.
Qed.
Lemma Beqb_R : forall x y : fl, is_finite x = true -> is_finite y = true -> Beqb x y = if Req_EM_T (B2R x) (B2R y) then true else false.
Proof.
  intros x y Fx Fy. rewrite (Beqb_correct prec emax x y Fx Fy). destruct (Req_EM_T (B2R x) (B2R y)).
  - apply Req_bool_true; auto. - apply Req_bool_false; lra.
Qed.

(** One step on numbers. *)
Definition pstep (a : fl) (st : @sum_of_squares_result F) : @sum_of_squares_result F :=
  if Beqb a (B754_zero false) then st
  else if Bltb (scaling_factor st) a then
    let q := Bdiv mode_NE (scaling_factor st) a in
    @Ssq F a (Bplus mode_NE (@Bone prec emax Hp He) (Bmult mode_NE (Bmult mode_NE (scaled_sum_of_squares st) q) q))
  else
    let q := Bdiv mode_NE a (scaling_factor st) in
    @Ssq F (scaling_factor st) (Bplus mode_NE (scaled_sum_of_squares st) (Bmult mode_NE q q)).

Lemma pstep_ok : forall (a : fl) (st : @sum_of_squares_result F) N,
  let sc := B2R (scaling_factor st : fl) in let s := B2R (scaled_sum_of_squares st : fl) in
  is_finite a = true -> is_finite (scaling_factor st : fl) = true -> is_finite (scaled_sum_of_squares st : fl) = true ->
  0 <= B2R a -> 0 <= sc -> 1 <= s <= N -> s + 1 <= maxf ->
  let sc' := B2R (scaling_factor (pstep a st) : fl) in let s' := B2R (scaled_sum_of_squares (pstep a st) : fl) in
  is_finite (scaling_factor (pstep a st) : fl) = true /\ is_finite (scaled_sum_of_squares (pstep a st) : fl) = true /\
  sc' = Rmax sc (B2R a) /\ 1 <= s' <= (1 + u) * (s + 1) /\
  Rabs (s' * (sc' * sc') - (s * (sc * sc) + B2R a * B2R a))
  <= ((1 + u) ^ 5 - 1) * (s * (sc * sc) + B2R a * B2R a) + 16 * N * eta * (sc' * sc').
Proof.
  intros a st N sc s Fa Fsc Fs Ha Hsc Hs Hmax. unfold pstep.
  pose proof u_range as HU. pose proof (eta_pos prec emax) as HE.
  assert (Hr5 : 1 <= (1 + u) ^ 5) by (apply pow_R1_Rle; lra).
  assert (H1max : 1 <= maxf) by lra.
  rewrite (Beqb_R a (B754_zero false) Fa eq_refl). change (B2R (B754_zero false)) with 0.
  destruct (Req_EM_T (B2R a) 0) as [Ea|Na].
  { fold sc s. rewrite Ea, Rmult_0_r, Rplus_0_r, Rmax_left by lra. rewrite Rminus_diag_eq, Rabs_R0 by auto.
    repeat split; auto; try lra; try nra.
    apply Rplus_le_le_0_compat; apply Rmult_le_pos; nra. }
  rewrite (Bltb_R _ _ Fsc Fa). fold sc.
  destruct (Rlt_dec sc (B2R a)) as [L|L]; cbn [scaling_factor scaled_sum_of_squares].
  - (* new scale *)
    assert (Pa : 0 < B2R a) by lra.
    set (q := sc / B2R a).
    assert (Hq : 0 <= q <= 1).
    { unfold q. split; [apply Rmult_le_pos; auto; left; apply Rinv_0_lt_compat; lra|].
      apply Rmult_le_reg_r with (B2R a); auto. unfold Rdiv. rewrite Rmult_assoc, Rinv_l by lra. lra. }
    destruct (Bdiv_r (scaling_factor st) a Fsc Na) as [F1 E1]; [fold sc; fold q; rewrite Rabs_pos_eq; lra|]. fold sc in E1. fold q in E1.
    set (qf := Bdiv mode_NE (scaling_factor st) a) in *.
    assert (Hqh : 0 <= B2R qf <= 1) by (rewrite E1; apply rnd_01; auto).
    destruct (Bmult_r (scaled_sum_of_squares st) qf Fs F1) as [F2 E2]; [fold s; rewrite Rabs_pos_eq; nra|]. fold s in E2.
    set (tf := Bmult mode_NE (scaled_sum_of_squares st) qf) in *.
    assert (Ht : 0 <= B2R tf <= s).
    { rewrite E2. split; [change 0 with (B2R (B754_zero false : fl)); apply rnd_ge; simpl; nra|apply rnd_le; fold s; nra]. }
    destruct (Bmult_r tf qf F2 F1) as [F3 E3]; [rewrite Rabs_pos_eq; nra|].
    set (t2 := Bmult mode_NE tf qf) in *.
    assert (Ht2 : 0 <= B2R t2 <= s).
    { rewrite E3. split; [change 0 with (B2R (B754_zero false : fl)); apply rnd_ge; simpl; nra|apply rnd_le; fold s; nra]. }
    destruct (Bplus_r (@Bone prec emax Hp He) t2 one_fin F3) as (F4 & E4 & e4 & He4 & E4'); [rewrite one_R, Rabs_pos_eq; lra|].
    rewrite one_R in E4, E4'.
    split; auto. split; auto. split; [rewrite Rmax_right; lra|]. split.
    { split; [rewrite E4; rewrite <- one_R at 1; apply rnd_ge; rewrite one_R; lra|].
      rewrite E4'. apply Rabs_le_inv in He4. nra. }
    destruct (rnd_u q) as (e1 & h1 & K11 & K12 & _ & K13). rewrite <- E1 in K13.
    destruct (rnd_u (s * B2R qf)) as (e2 & h2 & K21 & K22 & _ & K23). rewrite <- E2 in K23.
    destruct (rnd_u (B2R tf * B2R qf)) as (e3 & h3 & K31 & K32 & _ & K33). rewrite <- E3 in K33.
    pose proof (caseA u eta HU HE N s q (B2R qf) (B2R tf) (B2R t2) _ e1 e2 e3 e4 h1 h2 h3 Hs Hq Hqh K11 K21 K31 He4 K12 K22 K32 K13 K23 K33 E4') as K.
    match goal with |- Rabs (?x * (_ * _) - _) <= _ => set (s' := x) in * end.
    assert (Esc : sc = q * B2R a) by (unfold q; field; lra).
    replace (s' * (B2R a * B2R a) - (s * (sc * sc) + B2R a * B2R a)) with ((s' - (1 + s * (q * q))) * (B2R a * B2R a)) by (rewrite Esc; ring).
    replace (((1 + u) ^ 5 - 1) * (s * (sc * sc) + B2R a * B2R a) + 16 * N * eta * (B2R a * B2R a))
      with ((((1 + u) ^ 5 - 1) * (1 + s * (q * q)) + 16 * N * eta) * (B2R a * B2R a)) by (rewrite Esc; ring).
    rewrite Rabs_mult, (Rabs_pos_eq (B2R a * B2R a)) by nra. apply Rmult_le_compat_r; [nra|exact K].
  - (* same scale *)
    assert (Psc : 0 < sc) by lra.
    set (q := B2R a / sc).
    assert (Hq : 0 <= q <= 1).
    { unfold q. split; [apply Rmult_le_pos; auto; left; apply Rinv_0_lt_compat; lra|].
      apply Rmult_le_reg_r with sc; auto. unfold Rdiv. rewrite Rmult_assoc, Rinv_l by lra. lra. }
    destruct (Bdiv_r a (scaling_factor st) Fa) as [F1 E1]; [fold sc; lra|fold sc; fold q; rewrite Rabs_pos_eq; lra|]. fold sc in E1. fold q in E1.
    set (qf := Bdiv mode_NE a (scaling_factor st)) in *.
    assert (Hqh : 0 <= B2R qf <= 1) by (rewrite E1; apply rnd_01; auto).
    destruct (Bmult_r qf qf F1 F1) as [F2 E2]; [rewrite Rabs_pos_eq; nra|].
    set (w := Bmult mode_NE qf qf) in *.
    assert (Hw : 0 <= B2R w <= 1) by (rewrite E2; apply rnd_01; nra).
    destruct (Bplus_r (scaled_sum_of_squares st) w Fs F2) as (F3 & E3 & e3 & He3 & E3'); [fold s; rewrite Rabs_pos_eq; lra|].
    fold s in E3, E3'.
    split; auto. split; auto. split; [rewrite Rmax_left by lra; reflexivity|]. fold sc. split.
    { split; [rewrite E3; apply Rle_trans with s; [lra|]; apply rnd_ge; fold s; lra|].
      rewrite E3'. apply Rabs_le_inv in He3. nra. }
    destruct (rnd_u q) as (e1 & h1 & K11 & K12 & _ & K13). rewrite <- E1 in K13.
    destruct (rnd_u (B2R qf * B2R qf)) as (e2 & h2 & K21 & K22 & _ & K23). rewrite <- E2 in K23.
    pose proof (caseB u eta HU HE N s q (B2R qf) (B2R w) _ e1 e2 e3 h1 h2 Hs Hq Hqh K11 K21 He3 K12 K22 K13 K23 E3') as K.
    match goal with |- Rabs (?x * (_ * _) - _) <= _ => set (s' := x) in * end.
    assert (Esc : B2R a = q * sc) by (unfold q; field; lra).
    rewrite Esc. 
    replace (s' * (sc * sc) - (s * (sc * sc) + q * sc * (q * sc))) with ((s' - (s + q * q)) * (sc * sc)) by ring.
    replace (((1 + u) ^ 5 - 1) * (s * (sc * sc) + q * sc * (q * sc)) + 16 * N * eta * (sc * sc))
      with ((((1 + u) ^ 5 - 1) * (s + q * q) + 16 * N * eta) * (sc * sc)) by ring.
    rewrite Rabs_mult, (Rabs_pos_eq (sc * sc)) by nra. apply Rmult_le_compat_r; [nra|exact K].
Qed.

Context {O : ops} (M : mags O F).
Notation sfac := (fun st : @sum_of_squares_result F => (scaling_factor st : fl)).
Notation sssq := (fun st : @sum_of_squares_result F => (scaled_sum_of_squares st : fl)).

Lemma ssq_run : forall (m : mem O) x f init, vec_holds m x f ->
  returns (vector_sum_of_squares M x init) m (fun r =>
    r = fold_left (fun st i => pstep (eabs M (f i)) st) (seq 0 (vext x)) init).
Proof.
  intros m x f init Hx. unfold vector_sum_of_squares.
  destruct (Nat.eqb_spec (vext x) 0) as [E|E]; [apply returns_ret; rewrite E; reflexivity|].
  apply returns_fold with (I := fun i r => r = fold_left (fun st i => pstep (eabs M (f i)) st) (seq 0 i) init); [lia|reflexivity|].
  intros i a Hi ->. unfold ssq_step. rget. rewrite seq_S, fold_left_app. cbn [fold_left plus].
  set (st := fold_left _ _ _). unfold pstep.
  change (@reqb F (eabs M (f i)) r0) with (Beqb (eabs M (f i) : fl) (B754_zero false)).
  destruct (Beqb _ _); [apply returns_ret; auto|]. rget.
  change (@rltb F (scaling_factor st) (eabs M (f i))) with (Bltb (scaling_factor st : fl) (eabs M (f i) : fl)).
  destruct (Bltb _ _); apply returns_ret; reflexivity.
Qed.

Lemma ssq_inv : forall n (f : nat -> O) init,
  good_mags M n f -> is_finite (sfac init) = true -> is_finite (sssq init) = true ->
  0 <= B2R (sfac init) -> 1 <= B2R (sssq init) ->
  (B2R (sssq init) + INR n) * (1 + u) ^ n <= maxf ->
  forall k, (k <= n)%nat ->
  let r := fold_left (fun st i => pstep (eabs M (f i)) st) (seq 0 k) init in
  let S := B2R (sssq init) * (B2R (sfac init) * B2R (sfac init)) + rsum k (fun i => fmag M (f i) * fmag M (f i)) in
  is_finite (sfac r) = true /\ is_finite (sssq r) = true /\
  B2R (sfac r) = Rmax (B2R (sfac init)) (rmax0 k (fun i => fmag M (f i))) /\
  1 <= B2R (sssq r) <= (B2R (sssq init) + INR k) * (1 + u) ^ k /\
  Rabs (B2R (sssq r) * (B2R (sfac r) * B2R (sfac r)) - S)
  <= ((1 + u) ^ (5 * k) - 1) * S
     + INR k * (16 * ((B2R (sssq init) + INR n) * (1 + u) ^ n) * eta) * (1 + u) ^ (5 * k) * (B2R (sfac r) * B2R (sfac r)).
Proof.
  intros n f init Hg Fsc Fs Hsc Hs Hmax. pose proof u_range as HU. pose proof (eta_pos prec emax) as HE.
  set (s0 := B2R (sssq init)) in *. set (c0 := B2R (sfac init)) in *. set (N := (s0 + INR n) * (1 + u) ^ n) in *.
  induction k as [|k IH]; intros Hk.
  - simpl. fold s0 c0. rewrite Rmax_left by lra. rewrite !Rplus_0_r, Rmult_1_r, Rminus_diag_eq, Rabs_R0 by auto.
    repeat split; auto; lra.
  - specialize (IH ltac:(lia)). cbv zeta in IH. destruct IH as (I1 & I2 & I3 & I4 & I5).
    cbv zeta. rewrite seq_S, fold_left_app. cbn [fold_left plus].
    set (st := fold_left _ (seq 0 k) init) in *.
    destruct (Hg k ltac:(lia)) as [Ga Gb].
    assert (Hpk : (1 + u) ^ k <= (1 + u) ^ n) by (apply Rle_pow; [lra|lia]).
    assert (Hpk1 : 1 <= (1 + u) ^ k) by (apply pow_R1_Rle; lra).
    assert (Hkn : INR k + 1 <= INR n) by (rewrite <- S_INR; apply le_INR; lia).
    pose proof (pos_INR k) as Hk0.
    assert (HN1 : (s0 + INR k + 1) * (1 + u) ^ k <= N) by (unfold N; apply Rmult_le_compat; lra).
    assert (HN2 : B2R (sssq st) + 1 <= N).
    { apply Rle_trans with ((s0 + INR k + 1) * (1 + u) ^ k); auto. nra. }
    destruct (pstep_ok (eabs M (f k)) st N Ga I1 I2 Gb) as (J1 & J2 & J3 & J4 & J5).
    { cbv beta in I3. rewrite I3. eapply Rle_trans; [exact Hsc|apply Rmax_l]. }
    { cbv beta in *. lra. }
    { cbv beta in *. lra. }
    split; auto. split; auto. split.
    { cbv beta in *. rewrite J3, I3. simpl. rewrite Rmax_assoc. reflexivity. }
    split.
    { split; [apply J4|]. eapply Rle_trans; [apply J4|]. simpl pow. rewrite S_INR. cbv beta in *. 
      assert (B2R (sssq st) + 1 <= (s0 + INR k + 1) * (1 + u) ^ k) by nra.
      replace ((s0 + (INR k + 1)) * ((1 + u) * (1 + u) ^ k)) with ((1 + u) * ((s0 + INR k + 1) * (1 + u) ^ k)) by ring.
      apply Rmult_le_compat_l; lra. }
    cbn [rsum]. rewrite <- Rplus_assoc.
    eapply accum with (V := B2R (sssq st) * (B2R (sfac st) * B2R (sfac st))) (X := B2R (sfac st) * B2R (sfac st)); auto.
    + apply Rmult_le_pos; [|lra]. apply Rmult_le_pos; [lra|]. lra.
    + apply Rplus_le_le_0_compat; [nra|]. apply rsum_nonneg. intros; nra.
    + unfold fmag; nra.
    + nra.
    + cbv beta in *. rewrite J3. assert (0 <= B2R (sfac st)) by (cbv beta; rewrite I3; eapply Rle_trans; [exact Hsc|apply Rmax_l]).
      pose proof (Rmax_l (B2R (sfac st)) (B2R (eabs M (f k) : fl))). apply Rmult_le_compat; auto.
    + cbv beta in *. apply Rmult_le_pos; [lra|nra].
Qed.
Lemma rmax0_sq : forall n g, (forall i, (i < n)%nat -> 0 <= g i) -> rmax0 n g * rmax0 n g <= rsum n (fun i => g i * g i).
Proof.
  induction n as [|n IH]; intros g Hg; simpl; [lra|].
  assert (0 <= g n) by (apply Hg; lia). pose proof (IH g ltac:(intros; apply Hg; lia)). 
  pose proof (@rsum_nonneg n (fun i => g i * g i) ltac:(intros; nra)).
  unfold Rmax. destruct (Rle_dec _ _); nra.
Qed.
Lemma ssq_float : forall (m : mem O) x f (init : @sum_of_squares_result F),
  vec_holds m x f -> good_mags M (vext x) f ->
  is_finite (scaling_factor init : fl) = true -> is_finite (scaled_sum_of_squares init : fl) = true ->
  0 <= B2R (scaling_factor init : fl) -> 1 <= B2R (scaled_sum_of_squares init : fl) ->
  (B2R (scaled_sum_of_squares init : fl) + INR (vext x)) * (1 + u) ^ vext x <= maxf ->
  returns (vector_sum_of_squares M x init) m (fun r =>
    let S := B2R (scaled_sum_of_squares init : fl) * (B2R (scaling_factor init : fl) * B2R (scaling_factor init : fl))
             + rsum (vext x) (fun i => fmag M (f i) * fmag M (f i)) in
    is_finite (scaling_factor r : fl) = true /\ is_finite (scaled_sum_of_squares r : fl) = true /\
    B2R (scaling_factor r : fl) = Rmax (B2R (scaling_factor init : fl)) (rmax0 (vext x) (fun i => fmag M (f i))) /\
    1 <= B2R (scaled_sum_of_squares r : fl) /\
    Rabs (B2R (scaled_sum_of_squares r : fl) * (B2R (scaling_factor r : fl) * B2R (scaling_factor r : fl)) - S)
    <= ssq_err prec emax (vext x) (B2R (scaled_sum_of_squares init : fl)) * S).
Proof.
  intros m x f init Hx Hg F1 F2 H1 H2 Hmax. eapply returns_conseq; [apply ssq_run; eauto|]. intros r ->.
  destruct (ssq_inv (vext x) f init Hg F1 F2 H1 H2 Hmax (vext x) (le_n _)) as (K1 & K2 & K3 & K4 & K5).
  cbv zeta. repeat split; auto; [apply K4|]. eapply Rle_trans; [exact K5|]. unfold ssq_err, gam. cbv beta in *.
  set (S := _ + _ : R). rewrite Rmult_plus_distr_r. apply Rplus_le_compat_l.
  pose proof u_range as HU. pose proof (eta_pos prec emax) as HE.
  apply Rmult_le_compat_l.
  - apply Rmult_le_pos; [apply Rmult_le_pos; [apply pos_INR|]|left; apply pow_lt; lra].
    apply Rmult_le_pos; [|lra]. apply Rmult_le_pos; [lra|]. apply Rmult_le_pos; [|left; apply pow_lt; lra].
    pose proof (pos_INR (vext x)). lra.
  - rewrite K3. unfold S. pose proof (rmax0_sq (vext x) (fun i => fmag M (f i)) ltac:(intros i Hi; apply Hg; auto)) as W.
    pose proof (@rmax0_nonneg (vext x) (fun i => fmag M (f i))) as W0.
    pose proof (@rsum_nonneg (vext x) (fun i => fmag M (f i) * fmag M (f i)) ltac:(intros; nra)).
    set (a := B2R (scaling_factor init)) in *. set (b := B2R (scaled_sum_of_squares init)) in *.
    assert (a * a <= b * (a * a)) by nra.
    unfold Rmax. destruct (Rle_dec _ _); nra.
Qed.

(** scale * sqrt(ssq) before init is added. *)
Lemma scale_sqrt : forall (sc w : fl) V T eps,
  is_finite sc = true -> is_finite w = true -> 0 <= B2R sc -> 1 <= B2R w -> 0 <= eps -> 0 <= T ->
  B2R w * (B2R sc * B2R sc) = V -> Rabs (sqrt V - T) <= eps * T ->
  let p := Bmult mode_NE sc (Bsqrt mode_NE w) in
  ((1 + eps) * (1 + u) ^ 2 * T + eta <= maxf -> is_finite p = true) /\
  (is_finite p = true -> Rabs (B2R p - T) <= ((1 + eps) * (1 + u) ^ 2 - 1) * T + eta).
Proof.
  intros sc w V T eps Fsc Fw Hsc Hw Heps HT EV HV p.
  pose proof u_range as HU. pose proof (eta_pos prec emax) as HE.
  destruct (Bsqrt_correct prec emax Hp He mode_NE w) as (S1 & S2 & _).
  assert (Fq : is_finite (Bsqrt mode_NE w) = true).
  { rewrite S2. destruct w as [[]|[]| |[] mw ew Bw]; simpl in *; try discriminate; auto.
    exfalso. pose proof (F2R_lt_0 radix2 (Float radix2 (Zneg mw) ew) ltac:(reflexivity)) as N. 
    change (F2R (Float radix2 (Z.neg mw) ew) < 0) in N. lra. }
  set (q := Bsqrt mode_NE w) in *. simpl round_mode in S1.
  assert (Hsq : 1 <= sqrt (B2R w)) by (rewrite <- sqrt_1; apply sqrt_le_1_alt; lra).
  assert (Hq : exists d, Rabs d <= u /\ B2R q = sqrt (B2R w) * (1 + d)).
  { rewrite S1. destruct (rnd_u (sqrt (B2R w))) as (e & h & K1 & K2 & K3 & K4).
    change (SpecFloat.fexp prec emax) with (FLT_exp (3 - emax - prec) prec). rewrite K4.
    destruct (Rmult_integral _ _ K3) as [-> | ->].
    - exists (h / sqrt (B2R w)). split; [|field; lra]. unfold Rdiv. rewrite Rabs_mult, (Rabs_pos_eq (/ _)) by (left; apply Rinv_0_lt_compat; lra).
      apply Rmult_le_reg_r with (sqrt (B2R w)); [lra|]. rewrite Rmult_assoc, Rinv_l by lra. pose proof eta_u. pose proof (Rabs_pos h). nra.
    - exists e. split; auto. ring. }
  destruct Hq as (d & Hd & Eq).
  assert (ESV : B2R sc * sqrt (B2R w) = sqrt V).
  { rewrite <- EV. rewrite sqrt_mult by nra. rewrite sqrt_square by auto. ring. }
  assert (EP : B2R sc * B2R q = sqrt V * (1 + d)) by (rewrite Eq, <- ESV; ring).
  pose proof (sqrt_pos V) as HV0. apply Rabs_le_inv in HV. assert (Hd' := Hd). apply Rabs_le_inv in Hd'.
  assert (B1 : sqrt V <= (1 + eps) * T) by lra.
  assert (B2 : sqrt V * (1 + d) <= (1 + eps) * T * (1 + u)) by (apply Rmult_le_compat; nra).
  assert (B0 : 0 <= sqrt V * (1 + d)) by (apply Rmult_le_pos; lra).
  assert (HX : 0 <= (1 + eps) * T) by (apply Rmult_le_pos; lra).
  split.
  - intros H. apply (Bmult_no prec emax Hp He); auto. rewrite EP. rewrite Rabs_pos_eq by lra. nra.
  - intros Fp. destruct (Bmult_fin prec emax Hp He sc q Fp) as (_ & _ & e & h & K1 & K2 & _ & K3). fold p in K3. rewrite K3, EP.
    apply v_le_u in K1. apply Rabs_le_inv in K1.
    replace (sqrt V * (1 + d) * (1 + e) + h - T) with ((sqrt V * (1 + d) * (1 + e) - T) + h) by ring.
    eapply Rle_trans; [apply Rabs_triang|]. apply Rplus_le_compat; auto.
    apply Rabs_le. split; [|nra].
    (* lower bound: sqrt V >= (1 - eps) T *)
    assert (L : T - (1 + eps) * (1 + u) ^ 2 * T + T <= sqrt V * (1 + d) * (1 + e)).
    { destruct (Rle_dec ((1 - eps) * T) 0) as [Z|Z].
      - apply Rle_trans with 0; [|apply Rmult_le_pos; lra]. assert (1 <= (1 + u) ^ 2) by nra. nra.
      - assert ((1 - eps) * T * ((1 - u) * (1 - u)) <= sqrt V * (1 + d) * (1 + e)).
        { rewrite (Rmult_assoc (sqrt V)). apply Rmult_le_compat; [lra|nra|lra|nra]. }
        nra. }
    lra.
Qed.
Lemma ssq_err_nonneg : forall n s0, 1 <= s0 -> 0 <= ssq_err prec emax n s0.
Proof.
  intros n s0 H. pose proof u_range as HU. pose proof (eta_pos prec emax) as HE. unfold ssq_err, gam.
  assert (1 <= (1 + u) ^ (5 * n)) by (apply pow_R1_Rle; lra). assert (1 <= (1 + u) ^ n) by (apply pow_R1_Rle; lra).
  pose proof (pos_INR n). apply Rplus_le_le_0_compat; [lra|]. apply Rmult_le_pos; [apply Rmult_le_pos; auto|lra].
  apply Rmult_le_pos; [|lra]. apply Rmult_le_pos; [lra|]. apply Rmult_le_pos; lra.
Qed.
Lemma two_norm_core : forall (m : mem O) x f, vec_holds m x f -> good_mags M (vext x) f ->
  (1 + INR (vext x)) * (1 + u) ^ vext x <= maxf ->
  let T := sqrt (rsum (vext x) (fun i => fmag M (f i) * fmag M (f i))) in
  let eps := ssq_err prec emax (vext x) 1 in
  exists p : fl, (forall init : fl, run (vector_two_norm M x init) m = Ok (Bplus mode_NE init p) m) /\
  ((1 + eps) * (1 + u) ^ 2 * T + eta <= maxf -> is_finite p = true) /\
  (is_finite p = true -> Rabs (B2R p - T) <= ((1 + eps) * (1 + u) ^ 2 - 1) * T + eta).
Proof.
  intros m x f Hx Hg Hmax T eps.
  destruct (ssq_float m x f (@Ssq F (B754_zero false) (@Bone prec emax Hp He)) Hx Hg) as (r & Hr & K1 & K2 & K3 & K4 & K5);
    cbn [scaling_factor scaled_sum_of_squares]; auto using one_fin.
  { simpl; lra. } { rewrite one_R; lra. } { rewrite one_R; auto. }
  cbn [scaling_factor scaled_sum_of_squares] in *. rewrite one_R in *. change (B2R (B754_zero false)) with 0 in *.
  rewrite !Rmult_0_r, Rplus_0_l in K5.
  set (S := rsum _ _) in *.
  assert (HS : 0 <= S) by (apply rsum_nonneg; intros; nra).
  assert (Hsc : 0 <= B2R (scaling_factor r : fl)) by (rewrite K3; apply Rmax_l).
  exists (Bmult mode_NE (scaling_factor r : fl) (Bsqrt mode_NE (scaled_sum_of_squares r : fl))). split.
  - intros init. unfold vector_two_norm. rewrite run_bind.
    change (@Ssq F r0 r1) with (@Ssq F (B754_zero false) (@Bone prec emax Hp He)). rewrite Hr. reflexivity.
  - eapply scale_sqrt; auto.
    + apply ssq_err_nonneg; lra.
    + apply sqrt_pos.
    + unfold T. apply sqrt_rel; auto. * apply Rmult_le_pos; [lra|nra]. * apply ssq_err_nonneg; lra.
Qed.
Lemma two_norm_float : forall (m : mem O) x f, vec_holds m x f -> good_mags M (vext x) f ->
  (1 + INR (vext x)) * (1 + u) ^ vext x <= maxf ->
  returns (vector_two_norm_noinit M x) m (fun r : fl =>
    let T := sqrt (rsum (vext x) (fun i => fmag M (f i) * fmag M (f i))) in
    let eps := ssq_err prec emax (vext x) 1 in
    ((1 + eps) * (1 + u) ^ 2 * T + eta <= maxf -> is_finite r = true) /\
    (is_finite r = true -> Rabs (B2R r - T) <= ((1 + eps) * (1 + u) ^ 2 - 1) * T + eta)).
Proof.
  intros m x f Hx Hg Hmax. destruct (two_norm_core m x f Hx Hg Hmax) as (p & H1 & H2 & H3).
  exists (Bplus mode_NE (B754_zero false) p). split; [apply H1|]. cbv zeta. split.
  - intros H. apply Bplus_zero. auto.
  - intros H. assert (is_finite p = true) as Fp by (destruct p as [[]|[]| |]; simpl in *; auto).
    destruct (Bplus_zero prec emax Hp He p Fp) as [-> _]. auto.
Qed.
Lemma two_norm_init_float : forall (m : mem O) x f (init : fl), vec_holds m x f -> good_mags M (vext x) f ->
  (1 + INR (vext x)) * (1 + u) ^ vext x <= maxf ->
  returns (vector_two_norm M x init) m (fun r : fl =>
    let T := sqrt (rsum (vext x) (fun i => fmag M (f i) * fmag M (f i))) in
    let eps := ssq_err prec emax (vext x) 1 in
    (is_finite init = true -> Rabs (B2R init) + (1 + eps) * (1 + u) ^ 2 * T + eta <= maxf -> is_finite r = true) /\
    (is_finite r = true -> is_finite init = true /\
       Rabs (B2R r - (B2R init + T)) <= ((1 + eps) * (1 + u) ^ 3 - 1) * (Rabs (B2R init) + T) + (1 + u) * eta)).
Proof.
  intros m x f init Hx Hg Hmax. destruct (two_norm_core m x f Hx Hg Hmax) as (p & H1 & H2 & H3).
  set (T := sqrt _) in *. set (eps := ssq_err _ _ _ _) in *.
  pose proof u_range as HU. pose proof (eta_pos prec emax) as HE. assert (0 <= T) as HT by apply sqrt_pos.
  assert (0 <= eps) as Heps by (apply ssq_err_nonneg; lra).
  assert (W2 : 1 <= (1 + u) ^ 2) by (apply pow_R1_Rle; lra).
  assert (W : 1 <= (1 + eps) * (1 + u) ^ 2) by nra.
  exists (Bplus mode_NE init p). split; [apply H1|]. cbv zeta. fold T eps. split.
  - intros Fi H. pose proof (Rabs_pos (B2R init)). assert (Fp : is_finite p = true) by (apply H2; lra).
    apply (Bplus_no prec emax Hp He); auto. eapply Rle_trans; [apply Rabs_triang|].
    specialize (H3 Fp). assert (Rabs (B2R p) <= T + Rabs (B2R p - T)).
    { replace (B2R p) with (T + (B2R p - T)) at 1 by ring. eapply Rle_trans; [apply Rabs_triang|]. rewrite (Rabs_pos_eq T); lra. }
    lra.
  - intros Fr. destruct (Bplus_fin prec emax Hp He init p Fr) as (Fi & Fp & _ & e & K1 & K2). split; auto.
    specialize (H3 Fp). rewrite K2. apply v_le_u in K1.
    replace ((B2R init + B2R p) * (1 + e) - (B2R init + T)) with (B2R init * e + (T * e + (B2R p - T) * (1 + e))) by ring.
    set (D := Rabs (B2R p - T)) in *.
    eapply Rle_trans; [apply Rabs_triang|]. eapply Rle_trans; [apply Rplus_le_compat_l, Rabs_triang|]. rewrite !Rabs_mult. fold D.
    assert (Rabs (1 + e) <= 1 + u) by (eapply Rle_trans; [apply Rabs_triang|]; rewrite Rabs_R1; lra).
    rewrite (Rabs_pos_eq T) by auto. pose proof (Rabs_pos (B2R init)) as PI. pose proof (Rabs_pos e).
    assert (D0 : 0 <= D) by apply Rabs_pos.
    assert (Rabs (B2R init) * Rabs e <= Rabs (B2R init) * u) by (apply Rmult_le_compat_l; lra).
    assert (T * Rabs e <= T * u) by (apply Rmult_le_compat_l; lra).
    assert (D * Rabs (1 + e) <= (((1 + eps) * (1 + u) ^ 2 - 1) * T + eta) * (1 + u)) by (apply Rmult_le_compat; auto using Rabs_pos).
    set (w := (1 + eps) * (1 + u) ^ 2) in *. replace ((1 + eps) * (1 + u) ^ 3) with (w * (1 + u)) by (unfold w; ring).
    assert (u <= w * (1 + u) - 1) by nra.
    assert (Rabs (B2R init) * u <= (w * (1 + u) - 1) * Rabs (B2R init)) by (rewrite Rmult_comm; apply Rmult_le_compat_r; auto).
    lra.
Qed.
End Ssq.

(** Propagation of rounding errors through sums, differences and products. *)
From Coq Require Import List Arith ZArith Reals Lia Lra Psatz Bool.
From Flocq Require Import Core.Core IEEE754.BinarySingleNaN.
From Verif Require Import Mem Scalar View Spec SpecR SpecF SpecF2 Norm Ieee Wp Sums PfIeee.
Local Open Scope R_scope.

Section Approx.
Context (prec emax : Z) (Hp : Prec_gt_0 prec) (He : Prec_lt_emax prec emax).
Notation fl := (binary_float prec emax).
Notation F := (ieee_ops prec emax Hp He).
Notation u := (unit_roundoff prec).
Notation eta := (half_tiny prec emax).
Notation maxf := (max_finite prec emax).
Implicit Types (r s a b : fl) (x M D : R) (E : nat).

(** |r - x| is within the bound of E roundings *)
Definition near E x M D r : Prop := Rabs (B2R r - x) <= gam prec E * M + (1 + u) ^ E * D.

Lemma vu : forall e, Rabs e <= PfIeee.v prec -> Rabs e <= u.
Proof. intros e H. destruct (v_bounds prec) as (_ & V & _). lra. Qed.
Lemma near_mag : forall E x M D r, near E x M D r -> Rabs x <= M -> Rabs (B2R r) <= (1 + u) ^ E * M + (1 + u) ^ E * D.
Proof.
  intros E x M D r H Hx. unfold near, gam in H. replace (B2R r) with (x + (B2R r - x)) by ring.
  eapply Rle_trans; [apply Rabs_triang|]. lra.
Qed.
Lemma near_weaken : forall E E' x M M' D D' r, near E x M D r -> (E <= E')%nat -> 0 <= M <= M' -> 0 <= D <= D' -> near E' x M' D' r.
Proof.
  intros E E' x M M' D D' r H HE HM HD. unfold near, gam in *. pose proof (pow_mono prec E E' HE) as P. pose proof (pow_ge1 prec E) as P1.
  eapply Rle_trans; [exact H|]. apply Rplus_le_compat; apply Rmult_le_compat; lra.
Qed.
Lemma near_exact : forall E x M D r, B2R r = x -> 0 <= M -> 0 <= D -> near E x M D r.
Proof.
  intros E x M D r <- HM HD. unfold near, gam. replace (B2R r - B2R r) with 0 by ring. rewrite Rabs_R0.
  pose proof (pow_ge1 prec E). assert (0 <= ((1 + u) ^ E - 1) * M) by (apply Rmult_le_pos; lra).
  assert (0 <= (1 + u) ^ E * D) by (apply Rmult_le_pos; lra). lra.
Qed.
Lemma near_step : forall E x M D z e, Rabs (z - x) <= gam prec E * M + (1 + u) ^ E * D -> Rabs x <= M -> Rabs e <= u ->
  Rabs (z * (1 + e) - x) <= gam prec (E + 1) * M + (1 + u) ^ (E + 1) * D.
Proof.
  intros E x M D z e H Hx Hee. pose proof (u_pos prec) as U.
  replace (z * (1 + e) - x) with ((z - x) * (1 + e) + x * e) by ring.
  eapply Rle_trans; [apply Rabs_triang|]. rewrite !Rabs_mult.
  assert (A : Rabs (1 + e) <= 1 + u) by (eapply Rle_trans; [apply Rabs_triang|]; rewrite Rabs_R1; lra).
  assert (B1 : Rabs (z - x) * Rabs (1 + e) <= (gam prec E * M + (1 + u) ^ E * D) * (1 + u)) by (apply Rmult_le_compat; auto using Rabs_pos).
  assert (B2 : Rabs x * Rabs e <= M * u) by (apply Rmult_le_compat; auto using Rabs_pos).
  unfold gam in *. rewrite pow_add. simpl. lra.
Qed.
Lemma near_plus : forall E x1 M1 D1 r1 x2 M2 D2 r2, near E x1 M1 D1 r1 -> near E x2 M2 D2 r2 -> Rabs x1 <= M1 -> Rabs x2 <= M2 ->
  is_finite (Bplus mode_NE r1 r2) = true -> near (E + 1) (x1 + x2) (M1 + M2) (D1 + D2) (Bplus mode_NE r1 r2).
Proof.
  intros E x1 M1 D1 r1 x2 M2 D2 r2 H1 H2 B1 B2 Hf. destruct (Bplus_fin prec emax Hp He r1 r2 Hf) as (_ & _ & _ & e & E1 & E2).
  unfold near. rewrite E2. apply near_step; [|eapply Rle_trans; [apply Rabs_triang|]; lra|apply vu; auto].
  replace (B2R r1 + B2R r2 - (x1 + x2)) with ((B2R r1 - x1) + (B2R r2 - x2)) by ring.
  eapply Rle_trans; [apply Rabs_triang|]. unfold near in H1, H2. lra.
Qed.
Lemma near_minus : forall E x1 M1 D1 r1 x2 M2 D2 r2, near E x1 M1 D1 r1 -> near E x2 M2 D2 r2 -> Rabs x1 <= M1 -> Rabs x2 <= M2 ->
  is_finite (Bminus mode_NE r1 r2) = true -> near (E + 1) (x1 - x2) (M1 + M2) (D1 + D2) (Bminus mode_NE r1 r2).
Proof.
  intros E x1 M1 D1 r1 x2 M2 D2 r2 H1 H2 B1 B2 Hf. destruct (Bminus_fin prec emax Hp He r1 r2 Hf) as (_ & _ & e & E1 & E2).
  unfold near. rewrite E2. apply near_step; [|unfold Rminus; eapply Rle_trans; [apply Rabs_triang|]; rewrite Rabs_Ropp; lra|apply vu; auto].
  replace (B2R r1 - B2R r2 - (x1 - x2)) with ((B2R r1 - x1) + - (B2R r2 - x2)) by ring.
  eapply Rle_trans; [apply Rabs_triang|]. rewrite Rabs_Ropp. unfold near in H1, H2. lra.
Qed.
Lemma near_mult : forall E x M D r b, near E x M D r -> Rabs x <= M -> 0 <= D -> is_finite (Bmult mode_NE r b) = true ->
  near (E + 1) (x * B2R b) (M * Rabs (B2R b)) (D * Rabs (B2R b) + eta) (Bmult mode_NE r b).
Proof.
  intros E x M D r b H B HD Hf. destruct (Bmult_fin prec emax Hp He r b Hf) as (_ & _ & e & h & E1 & E2 & _ & E3).
  assert (S : Rabs (B2R r * B2R b * (1 + e) - x * B2R b) <= gam prec (E + 1) * (M * Rabs (B2R b)) + (1 + u) ^ (E + 1) * (D * Rabs (B2R b))).
  { apply near_step; [| |apply vu; auto].
    - replace (B2R r * B2R b - x * B2R b) with ((B2R r - x) * B2R b) by ring. rewrite Rabs_mult. unfold near in H.
      apply (Rmult_le_compat_r (Rabs (B2R b))) in H; [|apply Rabs_pos]. lra.
    - rewrite Rabs_mult. apply Rmult_le_compat_r; auto. apply Rabs_pos. }
  unfold near. rewrite E3.
  replace (B2R r * B2R b * (1 + e) + h - x * B2R b) with ((B2R r * B2R b * (1 + e) - x * B2R b) + h) by ring.
  eapply Rle_trans; [apply Rabs_triang|].
  assert (1 * eta <= (1 + u) ^ (E + 1) * eta) by (apply Rmult_le_compat_r; [pose proof (eta_pos prec emax); lra|apply pow_ge1]).
  lra.
Qed.

Lemma W_nonneg : forall E, 0 <= (1 + u) ^ E.
Proof. intros. pose proof (pow_ge1 prec E). lra. Qed.
Lemma no_plus : forall E x1 M1 D1 r1 x2 M2 D2 r2, near E x1 M1 D1 r1 -> near E x2 M2 D2 r2 -> Rabs x1 <= M1 -> Rabs x2 <= M2 ->
  is_finite r1 = true -> is_finite r2 = true -> (1 + u) ^ E * (M1 + M2) + (1 + u) ^ E * (D1 + D2) <= maxf -> is_finite (Bplus mode_NE r1 r2) = true.
Proof.
  intros E x1 M1 D1 r1 x2 M2 D2 r2 H1 H2 B1 B2 F1 F2 H. apply (Bplus_no prec emax Hp He); auto.
  pose proof (near_mag _ _ _ _ _ H1 B1). pose proof (near_mag _ _ _ _ _ H2 B2). eapply Rle_trans; [apply Rabs_triang|]. lra.
Qed.
Lemma no_minus : forall E x1 M1 D1 r1 x2 M2 D2 r2, near E x1 M1 D1 r1 -> near E x2 M2 D2 r2 -> Rabs x1 <= M1 -> Rabs x2 <= M2 ->
  is_finite r1 = true -> is_finite r2 = true -> (1 + u) ^ E * (M1 + M2) + (1 + u) ^ E * (D1 + D2) <= maxf -> is_finite (Bminus mode_NE r1 r2) = true.
Proof.
  intros E x1 M1 D1 r1 x2 M2 D2 r2 H1 H2 B1 B2 F1 F2 H. apply (Bminus_no prec emax Hp He); auto.
  pose proof (near_mag _ _ _ _ _ H1 B1). pose proof (near_mag _ _ _ _ _ H2 B2). unfold Rminus. eapply Rle_trans; [apply Rabs_triang|]. rewrite Rabs_Ropp. lra.
Qed.
Lemma no_mult : forall E x M D r b, near E x M D r -> Rabs x <= M -> is_finite r = true -> is_finite b = true ->
  (1 + u) ^ E * (M * Rabs (B2R b)) + (1 + u) ^ E * (D * Rabs (B2R b)) <= maxf -> is_finite (Bmult mode_NE r b) = true.
Proof.
  intros E x M D r b H B F1 F2 HM. apply (Bmult_no prec emax Hp He); auto.
  apply near_mag with (M := M) in H; [|exact B]. rewrite Rabs_mult. eapply Rle_trans; [apply Rmult_le_compat_r; [apply Rabs_pos|exact H]|]. lra.
Qed.

(** * Rules of [approximates] *)
(** with the side condition that the magnitudes bound the value *)
Record appr E (ok : Prop) x M D r : Prop := Appr {
  ap_spec : approximates E ok x M D r; ap_mag : Rabs x <= M; ap_D : 0 <= D }.
Lemma appr_M : forall E ok x M D r, appr E ok x M D r -> 0 <= M.
Proof. intros E ok x M D r [_ H _]. pose proof (Rabs_pos x). lra. Qed.
Lemma appr_exact : forall a, appr 0 (is_finite a = true) (B2R a) (Rabs (B2R a)) 0 a.
Proof.
  intros a. constructor; try lra. split; auto. intros H; split; auto. apply (near_exact 0); auto using Rabs_pos. lra.
Qed.
Lemma appr_weaken : forall E E' ok x M M' D D' r, appr E ok x M D r -> (E <= E')%nat -> M <= M' -> D <= D' -> appr E' ok x M' D' r.
Proof.
  intros E E' ok x M M' D D' r HA HE HM HD. pose proof (appr_M _ _ _ _ _ _ HA). destruct HA as [[H1 H2] H3 H4].
  constructor; try lra. split.
  - intros Hf. destruct (H1 Hf) as [K1 K2]. split; auto. eapply near_weaken; [exact K2|auto|lra|lra].
  - intros Hok HB. apply H2; auto. eapply Rle_trans; [|exact HB].
    pose proof (pow_mono prec E E' HE). pose proof (W_nonneg E). apply Rplus_le_compat; apply Rmult_le_compat; lra.
Qed.
Lemma appr_iff : forall E ok ok' x M D r, appr E ok x M D r -> (ok <-> ok') -> appr E ok' x M D r.
Proof. intros E ok ok' x M D r [[H1 H2] H3 H4] H. constructor; auto. split; [intros Hf; destruct (H1 Hf); tauto|intros; apply H2; tauto]. Qed.
Lemma appr_plus : forall E ok1 x1 M1 D1 r1 ok2 x2 M2 D2 r2, appr E ok1 x1 M1 D1 r1 -> appr E ok2 x2 M2 D2 r2 ->
  appr (E + 1) (ok1 /\ ok2) (x1 + x2) (M1 + M2) (D1 + D2) (Bplus mode_NE r1 r2).
Proof.
  intros E ok1 x1 M1 D1 r1 ok2 x2 M2 D2 r2 HA1 HA2.
  pose proof (appr_M _ _ _ _ _ _ HA1). pose proof (appr_M _ _ _ _ _ _ HA2).
  destruct HA1 as [[H1 N1] B1 C1], HA2 as [[H2 N2] B2 C2].
  constructor; try lra; [|eapply Rle_trans; [apply Rabs_triang|]; lra]. split.
  - intros Hf. destruct (Bplus_fin prec emax Hp He r1 r2 Hf) as (F1 & F2 & _).
    destruct (H1 F1), (H2 F2). split; auto. apply near_plus; auto.
  - intros [O1 O2] HB. pose proof (pow_mono prec E (E + 1) ltac:(lia)) as P. pose proof (W_nonneg E) as P0.
    assert (Q : (1 + u) ^ E * (M1 + M2) + (1 + u) ^ E * (D1 + D2) <= maxf).
    { eapply Rle_trans; [|exact HB]. apply Rplus_le_compat; apply Rmult_le_compat_r; lra. }
    assert (0 <= (1 + u) ^ E * M1 /\ 0 <= (1 + u) ^ E * M2 /\ 0 <= (1 + u) ^ E * D1 /\ 0 <= (1 + u) ^ E * D2) by (repeat split; apply Rmult_le_pos; lra).
    assert (F1 : is_finite r1 = true) by (apply N1; auto; lra).
    assert (F2 : is_finite r2 = true) by (apply N2; auto; lra).
    eapply no_plus; [apply (H1 F1)|apply (H2 F2)|auto..].
Qed.
Lemma appr_minus : forall E ok1 x1 M1 D1 r1 ok2 x2 M2 D2 r2, appr E ok1 x1 M1 D1 r1 -> appr E ok2 x2 M2 D2 r2 ->
  appr (E + 1) (ok1 /\ ok2) (x1 - x2) (M1 + M2) (D1 + D2) (Bminus mode_NE r1 r2).
Proof.
  intros E ok1 x1 M1 D1 r1 ok2 x2 M2 D2 r2 HA1 HA2.
  pose proof (appr_M _ _ _ _ _ _ HA1). pose proof (appr_M _ _ _ _ _ _ HA2).
  destruct HA1 as [[H1 N1] B1 C1], HA2 as [[H2 N2] B2 C2].
  constructor; try lra; [|unfold Rminus; eapply Rle_trans; [apply Rabs_triang|]; rewrite Rabs_Ropp; lra]. split.
  - intros Hf. destruct (Bminus_fin prec emax Hp He r1 r2 Hf) as (F1 & F2 & _).
    destruct (H1 F1), (H2 F2). split; auto. apply near_minus; auto.
  - intros [O1 O2] HB. pose proof (pow_mono prec E (E + 1) ltac:(lia)) as P. pose proof (W_nonneg E) as P0.
    assert (Q : (1 + u) ^ E * (M1 + M2) + (1 + u) ^ E * (D1 + D2) <= maxf).
    { eapply Rle_trans; [|exact HB]. apply Rplus_le_compat; apply Rmult_le_compat_r; lra. }
    assert (0 <= (1 + u) ^ E * M1 /\ 0 <= (1 + u) ^ E * M2 /\ 0 <= (1 + u) ^ E * D1 /\ 0 <= (1 + u) ^ E * D2) by (repeat split; apply Rmult_le_pos; lra).
    assert (F1 : is_finite r1 = true) by (apply N1; auto; lra).
    assert (F2 : is_finite r2 = true) by (apply N2; auto; lra).
    eapply no_minus; [apply (H1 F1)|apply (H2 F2)|auto..].
Qed.
Lemma appr_mult : forall E ok x M D r b, appr E ok x M D r ->
  appr (E + 1) (is_finite r = true /\ ok /\ is_finite b = true) (x * B2R b) (M * Rabs (B2R b)) (D * Rabs (B2R b) + eta) (Bmult mode_NE r b).
Proof.
  intros E ok x M D r b HA. pose proof (appr_M _ _ _ _ _ _ HA). destruct HA as [[H1 N1] B1 C1].
  pose proof (eta_pos prec emax) as ET. pose proof (Rabs_pos (B2R b)) as Pb.
  assert (0 <= D * Rabs (B2R b)) by (apply Rmult_le_pos; lra).
  constructor; try lra; [|rewrite Rabs_mult; apply Rmult_le_compat_r; auto]. split.
  - intros Hf. destruct (Bmult_fin prec emax Hp He r b Hf) as (F1 & F2 & _).
    destruct (H1 F1). split; auto. apply near_mult; auto.
  - intros (F1 & O1 & O2) HB. destruct (H1 F1) as [_ K]. eapply no_mult; [exact K|auto..].
    pose proof (pow_mono prec E (E + 1) ltac:(lia)) as P. pose proof (W_nonneg E) as P0.
    eapply Rle_trans; [|exact HB]. apply Rplus_le_compat; apply Rmult_le_compat; try lra.
    apply Rmult_le_pos; lra.
Qed.
(** product of two inputs *)
Lemma appr_prod : forall a b,
  appr 1 (is_finite a = true /\ is_finite b = true) (B2R a * B2R b) (Rabs (B2R a) * Rabs (B2R b)) eta (Bmult mode_NE a b).
Proof.
  intros a b. pose proof (appr_mult _ _ _ _ _ _ b (appr_exact a)) as K. simpl Nat.add in K.
  replace (0 * Rabs (B2R b) + eta) with eta in K by ring. eapply appr_iff; [exact K|tauto].
Qed.
(** the first addition to zero is exact *)
Lemma appr_plus_zero : forall E ok x M D r, appr E ok x M D r -> appr E ok x M D (Bplus mode_NE (B754_zero false) r).
Proof.
  intros E ok x M D r [[H1 N1] B C]. constructor; auto. split.
  - intros Hf. destruct (Bplus_fin prec emax Hp He _ _ Hf) as (_ & F1 & _). destruct (Bplus_zero prec emax Hp He r F1) as [-> _]. auto.
  - intros Hok HB. apply (Bplus_zero prec emax Hp He r). auto.
Qed.

(** * Sums of approximated terms *)
Section Sum.
Variables (E0 : nat) (t : nat -> fl) (ok : nat -> Prop) (x M D : nat -> R).
Definition sums lo n (f : nat -> R) : R := rsum n (fun k => f (lo + k)%nat).
Lemma appr_sum : forall lo n s, (forall k, (lo <= k < lo + n)%nat -> appr E0 (ok k) (x k) (M k) (D k) (t k)) ->
  appr (E0 + n) (is_finite s = true /\ forall k, (lo <= k < lo + n)%nat -> ok k) (B2R s + sums lo n x) (Rabs (B2R s) + sums lo n M) (sums lo n D)
    (@sum_from F s lo n t).
Proof.
  intros lo n s. induction n as [|n IH]; intros H.
  - unfold sums. simpl. rewrite !Rplus_0_r. change (@sum_from F s lo 0 t) with s.
    eapply appr_iff; [eapply appr_weaken; [apply appr_exact|lia|lra|lra]|].
    split; [intros; split; auto; intros; lia|tauto].
  - rewrite sum_from_S. change (@add F) with (@Bplus prec emax _ _ mode_NE).
    assert (IH' := IH ltac:(intros; apply H; lia)).
    pose proof (appr_plus _ _ _ _ _ _ _ _ _ _ _ IH' (appr_weaken _ (E0 + n) _ _ _ _ _ _ _ (H (lo + n)%nat ltac:(lia)) ltac:(lia) (Rle_refl _) (Rle_refl _))) as K.
    unfold sums in *. cbn [rsum]. replace (E0 + Datatypes.S n)%nat with (E0 + n + 1)%nat by lia. rewrite <- !Rplus_assoc.
    eapply appr_iff; [exact K|]. split.
    + intros ((K1 & K2) & K3). split; auto. intros k Hk. destruct (Nat.eq_dec k (lo + n)) as [->|]; auto. apply K2; lia.
    + intros (K1 & K2). split; [split|]; auto; [intros; apply K2; lia|apply K2; lia].
Qed.
(** starting from zero saves a rounding *)
Lemma appr_bigsum : forall lo n, (forall k, (lo <= k < lo + n)%nat -> appr E0 (ok k) (x k) (M k) (D k) (t k)) ->
  appr (E0 + Nat.pred n) (forall k, (lo <= k < lo + n)%nat -> ok k) (sums lo n x) (sums lo n M) (sums lo n D)
    (@sum_from F (@zero F) lo n t).
Proof.
  intros lo n. induction n as [|n IH]; intros H.
  - unfold sums. simpl. change (@sum_from F (@zero F) lo 0 t) with (B754_zero false : fl).
    pose proof (appr_exact (B754_zero false)) as K. simpl in K. rewrite Rabs_R0 in K.
    eapply appr_iff; [eapply appr_weaken; [exact K|lia|lra|lra]|].
    split; auto. intros; lia.
  - rewrite sum_from_S. change (@add F) with (@Bplus prec emax _ _ mode_NE).
    assert (IH' := IH ltac:(intros; apply H; lia)). unfold sums in *. cbn [rsum].
    destruct n as [|n].
    + change (@sum_from F (@zero F) lo 0 t) with (B754_zero false : fl). simpl rsum. rewrite !Rplus_0_l. simpl Nat.pred. rewrite !Nat.add_0_r.
      eapply appr_iff; [apply appr_plus_zero; apply H; lia|].
      split; intros K; [intros k Hk; replace k with lo by lia; auto|apply K; lia].
    + pose proof (appr_plus _ _ _ _ _ _ _ _ _ _ _ IH' (appr_weaken _ (E0 + Nat.pred (Datatypes.S n)) _ _ _ _ _ _ _ (H (lo + Datatypes.S n)%nat ltac:(lia)) ltac:(lia) (Rle_refl _) (Rle_refl _))) as K.
      simpl Nat.pred in *. replace (E0 + Datatypes.S n)%nat with (E0 + n + 1)%nat by lia.
      eapply appr_iff; [exact K|]. split.
      * intros (K2 & K3) k Hk. destruct (Nat.eq_dec k (lo + Datatypes.S n)) as [->|]; auto. apply K2; lia.
      * intros K2. split; [intros; apply K2; lia|apply K2; lia].
Qed.
End Sum.
End Approx.

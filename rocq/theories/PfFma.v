(** Propagation of rounding errors when products may be fused with additions. *)
From Coq Require Import List Arith ZArith Reals Lia Lra Psatz Bool.
From Flocq Require Import Core.Core IEEE754.BinarySingleNaN.
From Verif Require Import Mem Scalar View Spec SpecR SpecF SpecF2 SpecRel Norm Ieee Fma SpecFma Wp Sums PfIeee PfApprox.
Local Open Scope R_scope.

Section Fma.
Context (prec emax : Z) (Hp : Prec_gt_0 prec) (He : Prec_lt_emax prec emax).
Notation fl := (binary_float prec emax).
Notation F := (fma_ops prec emax Hp He).
Notation u := (unit_roundoff prec).
Notation eta := (half_tiny prec emax).
Notation maxf := (max_finite prec emax).
Implicit Types (r s a b : fl) (x M D : R) (E : nat).

(** * The fused operation *)
Lemma Bfma_fin : forall x y z : fl, is_finite (Bfma mode_NE x y z) = true ->
  is_finite x = true /\ is_finite y = true /\ is_finite z = true /\
  exists e h, Rabs e <= PfIeee.v prec /\ Rabs h <= eta /\ B2R (Bfma mode_NE x y z) = (B2R x * B2R y + B2R z) * (1 + e) + h.
Proof.
  intros x y z H.
  assert (is_finite x = true /\ is_finite y = true /\ is_finite z = true) as (Fx & Fy & Fz).
  { destruct x as [[]|[]| |[]], y as [[]|[]| |[]], z as [[]|[]| |]; simpl in *; try discriminate; auto. }
  split; auto. split; auto. split; auto. pose proof (Bfma_correct prec emax Hp He mode_NE x y z Fx Fy Fz) as K. cbv zeta in K.
  destruct (Rlt_bool _ _).
  - destruct K as (K & _). destruct (rnd_ex prec emax Hp (B2R x * B2R y + B2R z)) as (e & h & K1 & K2 & K3 & K4).
    exists e, h. repeat split; auto. rewrite <- K4. exact K.
  - eapply overflow_inf in K; auto. congruence.
Qed.
Lemma Bfma_no : forall x y z : fl, is_finite x = true -> is_finite y = true -> is_finite z = true ->
  Rabs (B2R x * B2R y + B2R z) <= maxf -> is_finite (Bfma mode_NE x y z) = true.
Proof.
  intros x y z Fx Fy Fz H. pose proof (Bfma_correct prec emax Hp He mode_NE x y z Fx Fy Fz) as K. cbv zeta in K. simpl round_mode in K.
  change (SpecFloat.fexp prec emax) with (FLT_exp (3 - emax - prec) prec) in K. rewrite no_overflow in K; auto. tauto.
Qed.

(** * Sets of approximations *)
Definition bnd E x M D z : Prop := Rabs (z - x) <= gam prec E * M + (1 + u) ^ E * D.
(** a pending product has one rounding and one underflow less *)
Record papp E (ok : Prop) x M D (P : poss prec emax) : Prop := Papp {
  pa_val : forall r, val P r -> approximates E ok x M D r;
  pa_pend : forall a b, pend P a b -> exists E' D', E = S E' /\ D = D' + eta /\ 0 <= D' /\
    (is_finite a = true -> is_finite b = true -> ok /\ bnd E' x M D' (B2R a * B2R b)) /\
    (ok -> is_finite a = true /\ is_finite b = true);
  pa_mag : Rabs x <= M; pa_D : 0 <= D }.
Lemma papp_M : forall E ok x M D P, papp E ok x M D P -> 0 <= M.
Proof. intros E ok x M D P [_ _ H _]. pose proof (Rabs_pos x). lra. Qed.
Lemma papp_val : forall E ok x M D P, papp E ok x M D P -> forall r, val P r -> appr prec emax E ok x M D r.
Proof. intros E ok x M D P [H _ B C] r Hr. constructor; auto. Qed.
Lemma papp_exact : forall a, papp 0 (is_finite a = true) (B2R a) (Rabs (B2R a)) 0 (exactly a).
Proof.
  intros a. constructor; try lra; [|intros ? ? []]. intros r <-. apply (ap_spec prec emax). apply appr_exact.
Qed.
Lemma bnd_weaken : forall E E' x M M' D D' z, bnd E x M D z -> (E <= E')%nat -> 0 <= M <= M' -> 0 <= D <= D' -> bnd E' x M' D' z.
Proof.
  intros E E' x M M' D D' z H HE HM HD. unfold bnd, gam in *. pose proof (pow_mono prec E E' HE) as P. pose proof (pow_ge1 prec E) as P1.
  eapply Rle_trans; [exact H|]. apply Rplus_le_compat; apply Rmult_le_compat; lra.
Qed.
Lemma papp_weaken : forall E E' ok x M M' D D' P, papp E ok x M D P -> (E <= E')%nat -> M <= M' -> D <= D' -> papp E' ok x M' D' P.
Proof.
  intros E E' ok x M M' D D' P HA HE HM HD. pose proof (papp_M _ _ _ _ _ _ HA) as PM. pose proof HA as [H1 H2 H3 H4].
  constructor; try lra.
  - intros r Hr. apply (ap_spec prec emax). eapply appr_weaken; [apply (papp_val _ _ _ _ _ _ HA r Hr)|auto..].
  - intros a b Hab. destruct (H2 a b Hab) as (E1 & D1 & -> & -> & K1 & K2 & K3). exists (Nat.pred E'), (D' - eta).
    split; [lia|]. split; [lra|]. split; [lra|]. split; auto. intros Fa Fb. destruct (K2 Fa Fb) as [K4 K5]. split; auto.
    eapply bnd_weaken; [exact K5|lia|lra|lra].
Qed.
Lemma papp_iff : forall E ok ok' x M D P, papp E ok x M D P -> (ok <-> ok') -> papp E ok' x M D P.
Proof.
  intros E ok ok' x M D P [H1 H2 H3 H4] H. constructor; auto.
  - intros r Hr. destruct (H1 r Hr) as [K1 K2]. split; [intros Hf; destruct (K1 Hf); tauto|intros; apply K2; tauto].
  - intros a b Hab. destruct (H2 a b Hab) as (E1 & D1 & -> & -> & K1 & K2 & K3). exists E1, D1. do 3 (split; auto). tauto.
Qed.
(** fused: product z1 = a b within bounds, addend r2 *)
Lemma fma_appr : forall E ok1 x1 M1 D1 a b ok2 x2 M2 D2 r2,
  (is_finite a = true -> is_finite b = true -> ok1 /\ bnd E x1 M1 D1 (B2R a * B2R b)) ->
  (ok1 -> is_finite a = true /\ is_finite b = true) -> Rabs x1 <= M1 -> 0 <= D1 ->
  appr prec emax E ok2 x2 M2 D2 r2 ->
  approximates (E + 1) (ok1 /\ ok2) (x1 + x2) (M1 + M2) (D1 + eta + D2) (Bfma mode_NE a b r2).
Proof.
  intros E ok1 x1 M1 D1 a b ok2 x2 M2 D2 r2 H1 N1 B1 C1 HA2.
  pose proof (appr_M _ _ _ _ _ _ _ _ HA2). destruct HA2 as [[H2 N2] B2 C2]. pose proof (eta_pos prec emax) as ET.
  pose proof (Rabs_pos x1).
  assert (SUM : bnd E x1 M1 D1 (B2R a * B2R b) -> Rabs (B2R r2 - x2) <= gam prec E * M2 + (1 + u) ^ E * D2 ->
    Rabs ((B2R a * B2R b + B2R r2) - (x1 + x2)) <= gam prec E * (M1 + M2) + (1 + u) ^ E * (D1 + D2)).
  { intros K1 K2. replace (B2R a * B2R b + B2R r2 - (x1 + x2)) with ((B2R a * B2R b - x1) + (B2R r2 - x2)) by ring.
    eapply Rle_trans; [apply Rabs_triang|]. unfold bnd in K1. lra. }
  assert (MAG : Rabs (x1 + x2) <= M1 + M2) by (eapply Rle_trans; [apply Rabs_triang|]; lra).
  split.
  - intros Hf. destruct (Bfma_fin _ _ _ Hf) as (Fa & Fb & Fr & e & h & E1 & E2 & E3).
    destruct (H1 Fa Fb) as [O1 K1]. destruct (H2 Fr) as [O2 K2]. split; auto. rewrite E3.
    pose proof (near_step prec E (x1 + x2) (M1 + M2) (D1 + D2) _ e (SUM K1 K2) MAG (vu prec e E1)) as S.
    replace ((B2R a * B2R b + B2R r2) * (1 + e) + h - (x1 + x2)) with (((B2R a * B2R b + B2R r2) * (1 + e) - (x1 + x2)) + h) by ring.
    eapply Rle_trans; [apply Rabs_triang|].
    assert (1 * eta <= (1 + u) ^ (E + 1) * eta) by (apply Rmult_le_compat_r; [lra|apply pow_ge1]). lra.
  - intros [O1 O2] HB. destruct (N1 O1) as [Fa Fb]. destruct (H1 Fa Fb) as [_ K1].
    pose proof (pow_mono prec E (E + 1) ltac:(lia)) as P. pose proof (W_nonneg prec E) as P0.
    assert (Q : (1 + u) ^ E * (M1 + M2) + (1 + u) ^ E * (D1 + D2) <= maxf).
    { eapply Rle_trans; [|exact HB]. apply Rplus_le_compat; apply Rmult_le_compat; lra. }
    assert (0 <= (1 + u) ^ E * M1 /\ 0 <= (1 + u) ^ E * M2 /\ 0 <= (1 + u) ^ E * D1 /\ 0 <= (1 + u) ^ E * D2) by (repeat split; apply Rmult_le_pos; lra).
    assert (F2 : is_finite r2 = true) by (apply N2; auto; lra).
    apply Bfma_no; auto. pose proof (SUM K1 (proj2 (H2 F2))) as S.
    replace (B2R a * B2R b + B2R r2) with ((x1 + x2) + (B2R a * B2R b + B2R r2 - (x1 + x2))) by ring.
    eapply Rle_trans; [apply Rabs_triang|]. unfold gam in S. lra.
Qed.
Lemma papp_plus : forall E ok1 x1 M1 D1 P1 ok2 x2 M2 D2 P2, papp E ok1 x1 M1 D1 P1 -> papp E ok2 x2 M2 D2 P2 ->
  papp (E + 1) (ok1 /\ ok2) (x1 + x2) (M1 + M2) (D1 + D2) (@add F P1 P2).
Proof.
  intros E ok1 x1 M1 D1 P1 ok2 x2 M2 D2 P2 A1 A2.
  pose proof (papp_M _ _ _ _ _ _ A1). pose proof (papp_M _ _ _ _ _ _ A2).
  pose proof A1 as [V1 Q1 B1 C1]. pose proof A2 as [V2 Q2 B2 C2].
  constructor; try lra; [|intros ? ? []|eapply Rle_trans; [apply Rabs_triang|]; lra].
  intros r [(r1 & r2 & K1 & K2 & ->)|[(a & b & r2 & K1 & K2 & ->)|(r1 & a & b & K1 & K2 & ->)]].
  - apply (ap_spec prec emax). apply appr_plus; eapply papp_val; eassumption.
  - destruct (Q1 a b K1) as (E' & D' & EE & -> & K3 & K4 & K5).
    apply fma_appr; auto; [|eapply papp_val; eassumption]. intros Fa Fb. destruct (K4 Fa Fb). split; auto. eapply bnd_weaken; [eassumption|lia|lra|lra].
  - destruct (Q2 a b K2) as (E' & D' & EE & -> & K3 & K4 & K5).
    replace (x1 + x2) with (x2 + x1) by ring. replace (M1 + M2) with (M2 + M1) by ring. replace (D1 + (D' + eta)) with (D' + eta + D1) by ring.
    assert (K : approximates (E + 1) (ok2 /\ ok1) (x2 + x1) (M2 + M1) (D' + eta + D1) (Bfma mode_NE a b r1)).
    { apply fma_appr; auto; [|eapply papp_val; eassumption]. intros Fa Fb. destruct (K4 Fa Fb). split; auto. eapply bnd_weaken; [eassumption|lia|lra|lra]. }
    destruct K as [K6 K7]. split; [intros Hf; destruct (K6 Hf); tauto|intros; apply K7; tauto].
Qed.
(** product with an input of a number *)
Lemma papp_mult : forall E ok x M D P w b, papp E ok x M D P -> (forall r, val P r -> r = w) -> val P w ->
  papp (E + 1) (is_finite w = true /\ ok /\ is_finite b = true) (x * B2R b) (M * Rabs (B2R b)) (D * Rabs (B2R b) + eta) (@mul F P (exactly b)).
Proof.
  intros E ok x M D P w b A Hw Hv. pose proof (papp_M _ _ _ _ _ _ A). pose proof (papp_val _ _ _ _ _ _ A w Hv) as AW.
  pose proof (Rabs_pos (B2R b)) as Pb. pose proof (pa_D _ _ _ _ _ _ A) as PD. pose proof (pa_mag _ _ _ _ _ _ A) as PM.
  assert (0 <= D * Rabs (B2R b)) by (apply Rmult_le_pos; lra). pose proof (eta_pos prec emax).
  constructor; try lra; [| |rewrite Rabs_mult; apply Rmult_le_compat_r; auto].
  - intros r (r1 & r2 & K1 & K2 & ->). apply Hw in K1. subst r1. simpl in K2. subst r2.
    apply (ap_spec prec emax). apply appr_mult; auto.
  - intros a b' [K1 K2]. apply Hw in K1. subst a. simpl in K2. subst b'. exists E, (D * Rabs (B2R b)).
    split; [lia|]. split; [lra|]. split; [lra|]. split; [|tauto]. intros Fa Fb. destruct AW as [[N1 N2] N3 N4]. destruct (N1 Fa) as [N5 N6]. split; auto.
    unfold bnd. replace (B2R w * B2R b - x * B2R b) with ((B2R w - x) * B2R b) by ring. rewrite Rabs_mult.
    apply (Rmult_le_compat_r (Rabs (B2R b))) in N6; [|apply Rabs_pos]. lra.
Qed.
Lemma papp_prod : forall a b,
  papp 1 (is_finite a = true /\ is_finite b = true) (B2R a * B2R b) (Rabs (B2R a) * Rabs (B2R b)) eta (@mul F (exactly a) (exactly b)).
Proof.
  intros a b. pose proof (papp_mult _ _ _ _ _ _ a b (papp_exact a) (fun r H => eq_sym H) eq_refl) as K. simpl Nat.add in K.
  replace (0 * Rabs (B2R b) + eta) with eta in K by ring. eapply papp_iff; [exact K|tauto].
Qed.
Lemma papp_prod3 : forall c a b,
  papp 2 (is_finite (Bmult mode_NE c a) = true /\ (is_finite c = true /\ is_finite a = true) /\ is_finite b = true)
    (B2R c * B2R a * B2R b) (Rabs (B2R c) * Rabs (B2R a) * Rabs (B2R b)) (eta * Rabs (B2R b) + eta) (@mul F (@mul F (exactly c) (exactly a)) (exactly b)).
Proof.
  intros c a b. apply (papp_mult 1 _ _ _ _ _ (Bmult mode_NE c a) b (papp_prod c a)).
  - intros r (r1 & r2 & K1 & K2 & ->). simpl in K1, K2. subst. auto.
  - exists c, a. repeat split.
Qed.
(** the first addition to zero rounds a pending product, and nothing else *)
Lemma papp_plus_zero : forall E ok x M D P, papp E ok x M D P -> papp E ok x M D (@add F (@zero F) P).
Proof.
  intros E ok x M D P A. pose proof (papp_M _ _ _ _ _ _ A). pose proof A as [V Q B C]. constructor; auto; [|intros ? ? []].
  intros r [(r1 & r2 & K1 & K2 & ->)|[(a & b & r2 & [] & _)|(r1 & a & b & K1 & K2 & ->)]].
  - simpl in K1. subst r1. apply (ap_spec prec emax). apply appr_plus_zero. eapply papp_val; eassumption.
  - simpl in K1. subst r1. destruct (Q a b K2) as (E' & D' & -> & -> & K3 & K4 & K5).
    assert (K : approximates (E' + 1) (ok /\ is_finite (B754_zero false : fl) = true) (x + 0) (M + 0) (D' + eta + 0) (Bfma mode_NE a b (B754_zero false))).
    { apply fma_appr; auto. pose proof (appr_exact prec emax (B754_zero false)) as Z. simpl B2R in Z. rewrite Rabs_R0 in Z.
      eapply appr_weaken; [exact Z|lia|lra|lra]. }
    rewrite !Rplus_0_r in K. rewrite Nat.add_1_r in K. destruct K as [K6 K7].
    split; [intros Hf; destruct (K6 Hf); tauto|intros; apply K7; auto].
Qed.

Section Sum.
Variables (E0 : nat) (t : nat -> F) (ok : nat -> Prop) (x M D : nat -> R).
Lemma papp_sum : forall lo n s, (forall k, (lo <= k < lo + n)%nat -> papp E0 (ok k) (x k) (M k) (D k) (t k)) ->
  papp (E0 + n) (is_finite s = true /\ forall k, (lo <= k < lo + n)%nat -> ok k) (B2R s + sums lo n x) (Rabs (B2R s) + sums lo n M) (sums lo n D)
    (@sum_from F (exactly s) lo n t).
Proof.
  intros lo n s. induction n as [|n IH]; intros H.
  - unfold sums. simpl. rewrite !Rplus_0_r. change (@sum_from F (exactly s) lo 0 t) with (exactly s).
    eapply papp_iff; [eapply papp_weaken; [apply papp_exact|lia|lra|lra]|].
    split; [intros; split; auto; intros; lia|tauto].
  - rewrite sum_from_S.
    assert (IH' := IH ltac:(intros; apply H; lia)).
    pose proof (papp_plus _ _ _ _ _ _ _ _ _ _ _ IH' (papp_weaken _ (E0 + n) _ _ _ _ _ _ _ (H (lo + n)%nat ltac:(lia)) ltac:(lia) (Rle_refl _) (Rle_refl _))) as K.
    unfold sums in *. cbn [rsum]. replace (E0 + Datatypes.S n)%nat with (E0 + n + 1)%nat by lia. rewrite <- !Rplus_assoc.
    eapply papp_iff; [exact K|]. split.
    + intros ((K1 & K2) & K3). split; auto. intros k Hk. destruct (Nat.eq_dec k (lo + n)) as [->|]; auto. apply K2; lia.
    + intros (K1 & K2). split; [split|]; auto; [intros; apply K2; lia|apply K2; lia].
Qed.
Lemma papp_bigsum : forall lo n, (forall k, (lo <= k < lo + n)%nat -> papp E0 (ok k) (x k) (M k) (D k) (t k)) ->
  papp (E0 + Nat.pred n) (forall k, (lo <= k < lo + n)%nat -> ok k) (sums lo n x) (sums lo n M) (sums lo n D)
    (@sum_from F (@zero F) lo n t).
Proof.
  intros lo n. induction n as [|n IH]; intros H.
  - unfold sums. simpl. change (@sum_from F (@zero F) lo 0 t) with (exactly (B754_zero false : fl)).
    pose proof (papp_exact (B754_zero false)) as K. simpl in K. rewrite Rabs_R0 in K.
    eapply papp_iff; [eapply papp_weaken; [exact K|lia|lra|lra]|].
    split; auto. intros; lia.
  - rewrite sum_from_S.
    assert (IH' := IH ltac:(intros; apply H; lia)). unfold sums in *. cbn [rsum].
    destruct n as [|n].
    + change (@sum_from F (@zero F) lo 0 t) with (@zero F). simpl rsum. rewrite !Rplus_0_l. simpl Nat.pred. rewrite !Nat.add_0_r.
      eapply papp_iff; [apply papp_plus_zero; apply H; lia|].
      split; intros K; [intros k Hk; replace k with lo by lia; auto|apply K; lia].
    + pose proof (papp_plus _ _ _ _ _ _ _ _ _ _ _ IH' (papp_weaken _ (E0 + Nat.pred (Datatypes.S n)) _ _ _ _ _ _ _ (H (lo + Datatypes.S n)%nat ltac:(lia)) ltac:(lia) (Rle_refl _) (Rle_refl _))) as K.
      simpl Nat.pred in *. replace (E0 + Datatypes.S n)%nat with (E0 + n + 1)%nat by lia.
      eapply papp_iff; [exact K|]. split.
      * intros (K2 & K3) k Hk. destruct (Nat.eq_dec k (lo + Datatypes.S n)) as [->|]; auto. apply K2; lia.
      * intros K2. split; [intros; apply K2; lia|apply K2; lia].
Qed.
End Sum.
End Fma.

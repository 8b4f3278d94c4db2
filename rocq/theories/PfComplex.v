(** Error bounds of sums of products in complex floating-point arithmetic. *)
From Coq Require Import List Arith ZArith Reals Lia Lra Psatz Bool.
From Flocq Require Import Core.Core IEEE754.BinarySingleNaN.
From Verif Require Import Mem Scalar View Spec SpecR SpecF SpecC Idx Wp Loops Sums Norm Ieee IeeeC PfIeee PfApprox PfFloat2.
Local Open Scope R_scope.

Section Complex.
Context (prec emax : Z) (Hp : Prec_gt_0 prec) (He : Prec_lt_emax prec emax).
Variables recover cdiv : cfl prec emax -> cfl prec emax -> cfl prec emax.
Hypothesis Hrec : forall x y, ~ cfin (recover x y).
Notation C := (ieee_c prec emax Hp He recover cdiv).
Notation cx := (cfl prec emax).
Notation u := (unit_roundoff prec).
Notation eta := (half_tiny prec emax).
Notation maxf := (max_finite prec emax).
Implicit Types (r s x y : cx) (E : nat) (D : R).

Record capp E (ok : Prop) (xr xi Mr Mi D : R) r : Prop := Capp {
  cap_spec : capproximates E ok xr xi Mr Mi D r; cap_re : Rabs xr <= Mr; cap_im : Rabs xi <= Mi; cap_D : 0 <= D }.
Lemma capp_M : forall E ok xr xi Mr Mi D r, capp E ok xr xi Mr Mi D r -> 0 <= Mr /\ 0 <= Mi.
Proof. intros E ok xr xi Mr Mi D r [_ H1 H2 _]. pose proof (Rabs_pos xr). pose proof (Rabs_pos xi). lra. Qed.
Lemma capp_exact : forall s, capp 0 (cfin s) (rpart s) (ipart s) (Rabs (rpart s)) (Rabs (ipart s)) 0 s.
Proof.
  intros s. constructor; try lra. split; auto. intros H; split; auto.
  split; apply (near_exact prec emax 0); auto using Rabs_pos; lra.
Qed.
Lemma capp_weaken : forall E E' ok xr xi Mr Mi D D' r, capp E ok xr xi Mr Mi D r -> (E <= E')%nat -> D <= D' -> capp E' ok xr xi Mr Mi D' r.
Proof.
  intros E E' ok xr xi Mr Mi D D' r HA HE HD. destruct (capp_M _ _ _ _ _ _ _ _ HA) as [Q1 Q2]. destruct HA as [[H1 H2] H3 H4 H5].
  constructor; try lra. split.
  - intros Hf. destruct (H1 Hf) as (K1 & K2 & K3). split; auto.
    split; [eapply (near_weaken prec emax); [exact K2|..]|eapply (near_weaken prec emax); [exact K3|..]]; auto; lra.
  - pose proof (pow_mono prec E E' HE). pose proof (W_nonneg prec E).
    intros Hok HB1 HB2. apply H2; auto; [eapply Rle_trans; [|exact HB1]|eapply Rle_trans; [|exact HB2]];
    apply Rplus_le_compat; apply Rmult_le_compat; lra.
Qed.
Lemma capp_iff : forall E ok ok' xr xi Mr Mi D r, capp E ok xr xi Mr Mi D r -> (ok <-> ok') -> capp E ok' xr xi Mr Mi D r.
Proof. intros E ok ok' xr xi Mr Mi D r [[H1 H2] H3 H4 H5] H. constructor; auto. split; [intros Hf; destruct (H1 Hf); tauto|intros; apply H2; tauto]. Qed.
Lemma capp_plus : forall E ok1 xr1 xi1 Mr1 Mi1 D1 r1 ok2 xr2 xi2 Mr2 Mi2 D2 r2,
  capp E ok1 xr1 xi1 Mr1 Mi1 D1 r1 -> capp E ok2 xr2 xi2 Mr2 Mi2 D2 r2 ->
  capp (E + 1) (ok1 /\ ok2) (xr1 + xr2) (xi1 + xi2) (Mr1 + Mr2) (Mi1 + Mi2) (D1 + D2) (@add C r1 r2).
Proof.
  intros E ok1 xr1 xi1 Mr1 Mi1 D1 r1 ok2 xr2 xi2 Mr2 Mi2 D2 r2 HA1 HA2.
  destruct (capp_M _ _ _ _ _ _ _ _ HA1) as [Q1 Q2], (capp_M _ _ _ _ _ _ _ _ HA2) as [Q3 Q4].
  destruct HA1 as [[H1 N1] B1 B1' C1], HA2 as [[H2 N2] B2 B2' C2].
  change (@add C r1 r2) with (cadd prec emax Hp He r1 r2).
  constructor; try lra; try (eapply Rle_trans; [apply Rabs_triang|]; lra). split.
  - intros [Fr Fi]. cbn [cadd fst snd] in Fr, Fi.
    destruct (Bplus_fin prec emax Hp He _ _ Fr) as (F1 & F2 & _).
    destruct (Bplus_fin prec emax Hp He _ _ Fi) as (F3 & F4 & _).
    destruct (H1 (Logic.conj F1 F3)) as (K1 & K2 & K3), (H2 (Logic.conj F2 F4)) as (L1 & L2 & L3).
    split; auto. split; apply (near_plus prec emax Hp He); auto.
  - intros [O1 O2] HB1 HB2. pose proof (pow_mono prec E (E + 1) ltac:(lia)) as P. pose proof (W_nonneg prec E) as P0.
    assert (P1 : (1 + u) ^ E * (Mr1 + Mr2) + (1 + u) ^ E * (D1 + D2) <= maxf).
    { eapply Rle_trans; [|exact HB1]. apply Rplus_le_compat; apply Rmult_le_compat_r; lra. }
    assert (P2 : (1 + u) ^ E * (Mi1 + Mi2) + (1 + u) ^ E * (D1 + D2) <= maxf).
    { eapply Rle_trans; [|exact HB2]. apply Rplus_le_compat; apply Rmult_le_compat_r; lra. }
    assert (0 <= (1 + u) ^ E * Mr1 /\ 0 <= (1 + u) ^ E * Mr2 /\ 0 <= (1 + u) ^ E * Mi1 /\ 0 <= (1 + u) ^ E * Mi2 /\ 0 <= (1 + u) ^ E * D1 /\ 0 <= (1 + u) ^ E * D2)
      by (repeat split; apply Rmult_le_pos; lra).
    assert (F1 : cfin r1) by (apply N1; auto; lra).
    assert (F2 : cfin r2) by (apply N2; auto; lra).
    destruct (H1 F1) as (_ & K2 & K3), (H2 F2) as (_ & L2 & L3). destruct F1, F2.
    split; cbn [cadd fst snd].
    + eapply (no_plus prec emax Hp He); [exact K2|exact L2|auto..].
    + eapply (no_plus prec emax Hp He); [exact K3|exact L3|auto..].
Qed.

Lemma nan_not_finite : forall x : binary_float prec emax, is_nan x = true -> is_finite x = false.
Proof. intros [| | |]; simpl; auto; discriminate. Qed.
(** the product of two complex numbers *)
Lemma capp_prod : forall x y,
  capp 2 (cfin x /\ cfin y) (prod_re x y) (prod_im x y) (mag_re x y) (mag_im x y) (2 * eta) (@mul C x y).
Proof.
  intros [a b] [c d]. unfold prod_re, prod_im, mag_re, mag_im, rpart, ipart. cbn [fst snd].
  pose proof (appr_minus prec emax Hp He _ _ _ _ _ _ _ _ _ _ _ (appr_prod prec emax Hp He a c) (appr_prod prec emax Hp He b d)) as [[R1 R2] R3 R4].
  pose proof (appr_plus prec emax Hp He _ _ _ _ _ _ _ _ _ _ _ (appr_prod prec emax Hp He a d) (appr_prod prec emax Hp He b c)) as [[I1 I2] I3 I4].
  replace (eta + eta) with (2 * eta) in * by ring. simpl Nat.add in *.
  change (@mul C (a, b) (c, d)) with (cmul prec emax Hp He recover (a, b) (c, d)). unfold cmul, cmul_plain. cbn [fst snd].
  constructor; auto.
  set (p := Bminus mode_NE (Bmult mode_NE a c) (Bmult mode_NE b d)) in *. set (q := Bplus mode_NE (Bmult mode_NE a d) (Bmult mode_NE b c)) in *.
  destruct (is_nan p && is_nan q) eqn:N.
  - split; [intros H; exfalso; eapply Hrec; eauto|]. intros Hok HB1 HB2. exfalso. apply andb_prop in N. destruct N as [N _].
    apply nan_not_finite in N. rewrite R2 in N; [discriminate| |exact HB1]. unfold cfin in Hok. cbn [fst snd] in Hok. tauto.
  - split.
    + intros [Fp Fq]. cbn [fst snd] in Fp, Fq. destruct (R1 Fp) as [K1 K2], (I1 Fq) as [L1 L2]. unfold cfin, rpart, ipart. cbn [fst snd]. tauto.
    + intros Hok HB1 HB2. unfold cfin in Hok. cbn [fst snd] in Hok. split; cbn [fst snd]; [apply R2; auto; tauto|apply I2; auto; tauto].
Qed.
Lemma capp_plus_zero : forall E ok xr xi Mr Mi D r, capp E ok xr xi Mr Mi D r -> capp E ok xr xi Mr Mi D (@add C (@zero C) r).
Proof.
  intros E ok xr xi Mr Mi D r [[H1 N1] B B' C1]. constructor; auto.
  change (@add C (@zero C) r) with (Bplus mode_NE (B754_zero false) (fst r), Bplus mode_NE (B754_zero false) (snd r)). split.
  - intros [Fr Fi]. cbn [fst snd] in Fr, Fi. destruct (Bplus_fin prec emax Hp He _ _ Fr) as (_ & F1 & _), (Bplus_fin prec emax Hp He _ _ Fi) as (_ & F2 & _).
    unfold rpart, ipart. cbn [fst snd].
    destruct (Bplus_zero prec emax Hp He _ F1) as [-> _], (Bplus_zero prec emax Hp He _ F2) as [-> _]. apply (H1 (Logic.conj F1 F2)).
  - intros Hok HB1 HB2. destruct (N1 Hok HB1 HB2) as [F1 F2]. split; cbn [fst snd]; apply (Bplus_zero prec emax Hp He); auto.
Qed.

Section Sum.
Variables (E0 : nat) (t : nat -> cx) (ok : nat -> Prop) (xr xi Mr Mi D : nat -> R).
Hypothesis Ht : forall k, capp E0 (ok k) (xr k) (xi k) (Mr k) (Mi k) (D k) (t k).
Lemma capp_sum : forall n s,
  capp (E0 + n) (cfin s /\ forall k, (k < n)%nat -> ok k) (rpart s + rsum n xr) (ipart s + rsum n xi)
    (Rabs (rpart s) + rsum n Mr) (Rabs (ipart s) + rsum n Mi) (rsum n D) (@sum_from C s 0 n t).
Proof.
  intros n s. induction n as [|n IH].
  - simpl rsum. rewrite !Rplus_0_r. change (@sum_from C s 0 0 t) with s.
    eapply capp_iff; [eapply capp_weaken; [apply capp_exact|lia|lra]|].
    split; [intros; split; auto; intros; lia|tauto].
  - rewrite sum_from_S. 
    pose proof (capp_plus _ _ _ _ _ _ _ _ _ _ _ _ _ _ _ IH (capp_weaken _ (E0 + n) _ _ _ _ _ _ _ _ (Ht n) ltac:(lia) (Rle_refl _))) as K.
    cbn [rsum]. replace (E0 + Datatypes.S n)%nat with (E0 + n + 1)%nat by lia. rewrite <- !Rplus_assoc.
    eapply capp_iff; [exact K|]. split.
    + intros ((K1 & K2) & K3). split; auto. intros k Hk. destruct (Nat.eq_dec k n) as [->|]; auto. apply K2; lia.
    + intros (K1 & K2). split; [split|]; auto.
Qed.
Lemma capp_bigsum : forall n,
  capp (E0 + Nat.pred n) (forall k, (k < n)%nat -> ok k) (rsum n xr) (rsum n xi) (rsum n Mr) (rsum n Mi) (rsum n D)
    (@sum_from C (@zero C) 0 n t).
Proof.
  intros n. induction n as [|n IH].
  - simpl rsum. change (@sum_from C (@zero C) 0 0 t) with (@zero C).
    pose proof (capp_exact (@zero C)) as K. unfold rpart, ipart in K. simpl in K. rewrite Rabs_R0 in K.
    eapply capp_iff; [eapply capp_weaken; [exact K|lia|lra]|].
    split; [intros; lia|]. intros _. split; reflexivity.
  - rewrite sum_from_S. cbn [rsum]. destruct n as [|n].
    + change (@sum_from C (@zero C) 0 0 t) with (@zero C). simpl rsum. rewrite !Rplus_0_l. simpl Nat.pred. rewrite !Nat.add_0_r.
      eapply capp_iff; [apply capp_plus_zero; apply Ht|].
      split; intros K; [intros k Hk; replace k with 0%nat by lia; auto|apply K; lia].
    + pose proof (capp_plus _ _ _ _ _ _ _ _ _ _ _ _ _ _ _ IH (capp_weaken _ (E0 + Nat.pred (Datatypes.S n)) _ _ _ _ _ _ _ _ (Ht (Datatypes.S n)) ltac:(lia) (Rle_refl _))) as K.
      simpl Nat.pred in *. replace (E0 + Datatypes.S n)%nat with (E0 + n + 1)%nat by lia.
      eapply capp_iff; [exact K|]. split.
      * intros (K2 & K3) k Hk. destruct (Nat.eq_dec k (Datatypes.S n)) as [->|]; auto. apply K2; lia.
      * intros K2. split; [intros; apply K2; lia|apply K2; lia].
Qed.
End Sum.

Lemma all_cfin_iff : forall n (f g : nat -> cx), (forall k, (k < n)%nat -> cfin (f k) /\ cfin (g k)) <-> all_cfin n f /\ all_cfin n g.
Proof. intros. split; [intros H; split; intros k Hk; apply H; auto|intros [H1 H2] k Hk; split; auto]. Qed.
Lemma caccurate_sum : forall n s (f g : nat -> cx),
  caccurate (n + 2) n s f g (@sum_from C s 0 n (fun k => @mul C (f k) (g k))).
Proof.
  intros. unfold caccurate. eapply cap_spec. rewrite Nat.add_comm. rewrite <- (rsum_const n (2 * eta)).
  eapply capp_iff; [apply (capp_sum 2 _ (fun k => cfin (f k) /\ cfin (g k)) (fun k => prod_re (f k) (g k)) (fun k => prod_im (f k) (g k))
    (fun k => mag_re (f k) (g k)) (fun k => mag_im (f k) (g k)) (fun _ => 2 * eta))|].
  - intros k. apply capp_prod.
  - rewrite all_cfin_iff. tauto.
Qed.
Lemma caccurate_bigsum : forall n (f g : nat -> cx),
  caccurate (n + 1) n (@zero C) f g (@bigsum C n (fun k => @mul C (f k) (g k))).
Proof.
  intros. unfold caccurate. eapply cap_spec. rewrite <- (rsum_const n (2 * eta)).
  change (rpart (@zero C)) with 0. change (ipart (@zero C)) with 0. rewrite Rabs_R0, !Rplus_0_l.
  destruct n as [|n].
  - pose proof (capp_exact (@zero C)) as K. unfold rpart, ipart in K. simpl in K. rewrite Rabs_R0 in K.
    eapply capp_iff; [eapply capp_weaken; [exact K|lia|simpl; lra]|].
    split; [intros K1; split; [auto|split; intros k Hk; lia]|]. intros _. split; reflexivity.
  - replace (Datatypes.S n + 1)%nat with (2 + Nat.pred (Datatypes.S n))%nat by (simpl; lia).
    eapply capp_iff; [apply (capp_bigsum 2 _ (fun k => cfin (f k) /\ cfin (g k)) (fun k => prod_re (f k) (g k)) (fun k => prod_im (f k) (g k))
      (fun k => mag_re (f k) (g k)) (fun k => mag_im (f k) (g k)) (fun _ => 2 * eta))|].
    + intros k. apply capp_prod.
    + rewrite all_cfin_iff. split; [intros K; split; [split; reflexivity|tauto]|tauto].
Qed.
Lemma caccurate2_sum : forall n s (f g p q : nat -> cx),
  caccurate2 (n + 3) n s f g p q (@sum_from C s 0 n (fun k => @add C (@mul C (f k) (g k)) (@mul C (p k) (q k)))).
Proof.
  intros. unfold caccurate2. eapply cap_spec. rewrite Nat.add_comm. rewrite <- (rsum_const n (4 * eta)).
  eapply capp_iff; [apply (capp_sum 3 _ (fun k => (cfin (f k) /\ cfin (g k)) /\ (cfin (p k) /\ cfin (q k)))
    (fun k => prod_re (f k) (g k) + prod_re (p k) (q k)) (fun k => prod_im (f k) (g k) + prod_im (p k) (q k))
    (fun k => mag_re (f k) (g k) + mag_re (p k) (q k)) (fun k => mag_im (f k) (g k) + mag_im (p k) (q k)) (fun _ => 4 * eta))|].
  - intros k. replace (4 * eta) with (2 * eta + 2 * eta) by ring. apply (capp_plus 2); apply capp_prod.
  - split.
    + intros [K1 K2]. repeat split; intros; try apply K1; apply (K2 k); auto.
    + intros (K1 & K2 & K3 & K4 & K5). split; auto.
Qed.
Lemma cconj_conj : forall v : C, conj (conj v) = v.
Proof. intros [a b]. simpl. unfold cconj. simpl. rewrite Bopp_involutive. auto. Qed.
End Complex.

(** Proofs about the order of rounded norms: the 2-norm, and exact scaling by powers of two. *)
From Coq Require Import List Arith Bool ZArith Reals Lra Lia.
From Flocq Require Import Core.Core IEEE754.BinarySingleNaN Plus_error.
From Verif Require Import Mem Scalar View Spec Wp Norm SpecR Ieee SpecF SpecOrd PfFloat PfNorm PfIeeeNorm PfIeeeNan PfIeeeSum PfIdxNan PfNormOrd.
Import ListNotations.
Local Open Scope R_scope.

Section Pf.
Variables prec emax : Z.
Hypothesis Hp : Prec_gt_0 prec.
Hypothesis He : Prec_lt_emax prec emax.
Notation fl := (binary_float prec emax).
Notation F := (ieee_r prec emax Hp He).
Notation emin := (3 - emax - prec)%Z.
Notation rnd := (round radix2 (FLT_exp (3 - emax - prec) prec) ZnearestE).
Notation maxf := (max_finite prec emax).
Notation u := (unit_roundoff prec).
Notation fsum := (fsum prec emax Hp He).
Notation lmax := (lmax prec emax Hp He).
Notation upper := (upper prec emax).
Notation step := (pstep prec emax Hp He).

Lemma maxf_lt : maxf < bpow radix2 emax.
Proof. unfold max_finite. pose proof (bpow_gt_0 radix2 (emax - prec)). lra. Qed.

(** * Rounding commutes with scaling by a power of two *)
Lemma rnd_FLX_scale : forall e x, round radix2 (FLX_exp prec) ZnearestE (bpow radix2 e * x) =
  bpow radix2 e * round radix2 (FLX_exp prec) ZnearestE x.
Proof.
  intros e x. destruct (Req_dec x 0) as [->|N]; [rewrite Rmult_0_r, round_0 by auto with typeclass_instances; ring|].
  unfold round, scaled_mantissa, cexp, F2R, FLX_exp. cbn [Fnum Fexp].
  rewrite (Rmult_comm (bpow radix2 e) x), (mag_mult_bpow radix2 x e N).
  replace (x * bpow radix2 e * bpow radix2 (- (Raux.mag radix2 x + e - prec))) with (x * bpow radix2 (- (Raux.mag radix2 x - prec))).
  - replace (Raux.mag radix2 x + e - prec)%Z with (e + (Raux.mag radix2 x - prec))%Z by ring. rewrite bpow_plus. ring.
  - rewrite Rmult_assoc, <- bpow_plus. do 2 f_equal. ring.
Qed.
Lemma rnd_normal : forall x, min_normal emax <= Rabs x -> rnd x = round radix2 (FLX_exp prec) ZnearestE x.
Proof. intros x H. apply round_FLT_FLX. replace (emin + prec - 1)%Z with (2 - emax)%Z by ring. exact H. Qed.
Lemma rnd_scale : forall e x, min_normal emax <= Rabs x -> min_normal emax <= Rabs (bpow radix2 e * x) ->
  rnd (bpow radix2 e * x) = bpow radix2 e * rnd x.
Proof. intros e x H1 H2. rewrite !rnd_normal by auto. apply rnd_FLX_scale. Qed.
Lemma rnd_plus_FLX : forall x y : fl, rnd (B2R x + B2R y) = round radix2 (FLX_exp prec) ZnearestE (B2R x + B2R y).
Proof.
  intros x y. destruct (Rle_or_lt (min_normal emax) (Rabs (B2R x + B2R y))) as [H|H]; [apply rnd_normal; auto|].
  assert (G : generic_format radix2 (FLT_exp emin prec) (B2R x + B2R y)).
  { apply FLT_format_plus_small; auto; try apply (generic_format_B2R prec emax).
    apply Rlt_le. eapply Rlt_le_trans; [exact H|]. unfold min_normal. apply bpow_le. lia. }
  rewrite !round_generic; auto with typeclass_instances.
  apply generic_format_FLX_FLT with (1 := G).
Qed.
Lemma plus_scale : forall e (x y x' y' : fl), is_finite x' = true -> is_finite y' = true ->
  B2R x' = bpow radix2 e * B2R x -> B2R y' = bpow radix2 e * B2R y ->
  is_finite x = true -> is_finite y = true -> is_finite (Bplus mode_NE x y) = true ->
  Rabs (bpow radix2 e * B2R (Bplus mode_NE x y)) <= maxf ->
  is_finite (Bplus mode_NE x' y') = true /\ B2R (Bplus mode_NE x' y') = bpow radix2 e * B2R (Bplus mode_NE x y).
Proof.
  intros e x y x' y' Fx' Fy' Ex Ey Fx Fy Fs Hm.
  assert (E : B2R (Bplus mode_NE x y) = rnd (B2R x + B2R y)).
  { pose proof (Bplus_correct prec emax Hp He mode_NE x y Fx Fy) as K. simpl round_mode in K.
    change (SpecFloat.fexp prec emax) with (FLT_exp (3 - emax - prec) prec) in K.
    destruct (Rlt_bool _ _); [tauto|]. destruct K as [K _]. destruct (Bplus _ _ _); try discriminate. }
  assert (E' : rnd (B2R x' + B2R y') = bpow radix2 e * B2R (Bplus mode_NE x y)).
  { rewrite E, !rnd_plus_FLX, Ex, Ey, <- Rmult_plus_distr_l. apply rnd_FLX_scale. }
  pose proof (Bplus_correct prec emax Hp He mode_NE x' y' Fx' Fy') as K. simpl round_mode in K.
  change (SpecFloat.fexp prec emax) with (FLT_exp (3 - emax - prec) prec) in K.
  rewrite Rlt_bool_true in K; [|rewrite E'; pose proof maxf_lt; lra]. rewrite E' in K. tauto.
Qed.

Lemma finite_between : forall x y : fl, fle (B754_zero false) x -> fle x y -> is_finite y = true -> is_finite x = true /\ 0 <= B2R x <= B2R y.
Proof.
  intros x y Zx L Fy. apply (fle_ext prec emax) in L. destruct L as [(Fx & _ & L)|[[-> _]|[-> _]]]; try discriminate.
  split; auto. split; auto. apply (zero_R prec emax); auto.
Qed.
Lemma fsum_scale : forall e n (s s' : fl) (g h : nat -> fl), fle (B754_zero false) s ->
  is_finite s' = true -> B2R s' = bpow radix2 e * B2R s ->
  (forall i, (i < n)%nat -> magnitude (g i) /\ is_finite (h i) = true /\ B2R (h i) = bpow radix2 e * B2R (g i)) ->
  is_finite (fsum s n g) = true -> bpow radix2 e * B2R (fsum s n g) <= maxf ->
  is_finite (fsum s' n h) = true /\ B2R (fsum s' n h) = bpow radix2 e * B2R (fsum s n g).
Proof.
  intros e n s s' g h Zs Fs' Es. pose proof (bpow_gt_0 radix2 e) as Be.
  induction n as [|n IH]; intros H Fr Hm; [simpl; auto|].
  rewrite !fsum_S in *.
  assert (Mg : forall i, (i < S n)%nat -> magnitude (g i)) by (intros; apply H; auto).
  assert (Zn : fle (B754_zero false) (fsum s n g)).
  { eapply (fle_trans prec emax); [exact Zs|]. apply (fsum_ge_init prec emax Hp He); auto. apply (zero_upper prec emax); auto. }
  destruct (finite_between _ _ Zn (plus_ge_l prec emax Hp He _ _ (zero_upper prec emax _ Zn) (Mg n ltac:(lia))) Fr) as [F1 B1].
  destruct (finite_between _ _ (mag_zero prec emax _ (Mg n ltac:(lia))) (plus_ge_r prec emax Hp He _ _ Zn (Mg n ltac:(lia))) Fr) as [F2 B2].
  destruct IH as [I1 I2]; auto.
  { eapply Rle_trans; [|exact Hm]. apply Rmult_le_compat_l; lra. }
  destruct (H n ltac:(lia)) as (_ & H2 & H3).
  apply plus_scale; auto. rewrite Rabs_pos_eq; auto. apply Rmult_le_pos; lra.
Qed.
Lemma lmax_scale : forall e n (init init' : fl) (g h : nat -> fl),
  is_finite init = true -> is_finite init' = true -> B2R init' = bpow radix2 e * B2R init ->
  (forall i, (i < n)%nat -> is_finite (g i) = true /\ is_finite (h i) = true /\ B2R (h i) = bpow radix2 e * B2R (g i)) ->
  is_finite (lmax init n g) = true /\ is_finite (lmax init' n h) = true /\ B2R (lmax init' n h) = bpow radix2 e * B2R (lmax init n g).
Proof.
  intros e n init init' g h Fi Fi' Ei. pose proof (bpow_gt_0 radix2 e) as Be.
  induction n as [|n IH]; intros H; [simpl; auto|]. rewrite !lmax_S.
  destruct IH as (I1 & I2 & I3); auto. destruct (H n ltac:(lia)) as (H1 & H2 & H3).
  destruct (std_max_R prec emax Hp He _ _ H1 I1) as [K1 K2]. destruct (std_max_R prec emax Hp He _ _ H2 I2) as [K3 K4].
  split; auto. split; auto. rewrite K2, K4, H3, I3. symmetry. unfold Rmax.
  destruct (Rle_dec (B2R (g n)) (B2R (lmax init n g))), (Rle_dec (bpow radix2 e * B2R (g n)) (bpow radix2 e * B2R (lmax init n g))); auto; exfalso.
  - apply n0. apply Rmult_le_compat_l; lra.
  - apply n0. apply Rmult_le_reg_l with (bpow radix2 e); auto.
Qed.
Lemma lines_scale : forall e n k (b b' : nat -> nat -> fl) (init init' : fl), fle (B754_zero false) init ->
  is_finite init' = true -> B2R init' = bpow radix2 e * B2R init ->
  (forall i j, (i < n)%nat -> (j < k)%nat -> magnitude (b i j) /\ is_finite (b' i j) = true /\ B2R (b' i j) = bpow radix2 e * B2R (b i j)) ->
  let r := lines prec emax Hp He n k b init in let r' := lines prec emax Hp He n k b' init' in
  is_finite r = true -> bpow radix2 e * B2R r <= maxf -> is_finite r' = true /\ B2R r' = bpow radix2 e * B2R r.
Proof.
  intros e n k b b' init init' Zi Fi' Ei H. unfold lines. pose proof (bpow_gt_0 radix2 e) as Be.
  destruct (((n =? 0) || (k =? 0))%nat) eqn:E0; auto.
  apply orb_false_iff in E0. destruct E0 as [E01 E02]. apply Nat.eqb_neq in E01, E02.
  pose proof (zero_upper prec emax _ Zi) as Ui.
  destruct ((n =? 1)%nat && (k =? 1)%nat) eqn:E; intros Fr Hm.
  { apply fsum_scale; auto. intros; apply H; lia. }
  assert (Nl : forall i, (i < n)%nat -> is_nan (fsum init k (b i)) = false).
  { intros. apply (upper_nan prec emax), (fsum_upper prec emax Hp He); auto. intros; apply H; auto. }
  destruct (lmax_ge prec emax Hp He n init (fun i => fsum init k (b i)) (upper_nan prec emax _ Ui) Nl) as (L1 & L2 & L3 & L4).
  destruct (finite_between _ _ Zi L2 Fr) as [Fi _].
  assert (S : forall i, (i < n)%nat -> is_finite (fsum init k (b i)) = true /\ is_finite (fsum init' k (b' i)) = true /\
    B2R (fsum init' k (b' i)) = bpow radix2 e * B2R (fsum init k (b i))).
  { intros i Hi.
    assert (Zl : fle (B754_zero false) (fsum init k (b i))).
    { eapply (fle_trans prec emax); [exact Zi|]. apply (fsum_ge_init prec emax Hp He); auto. intros; apply H; auto. }
    destruct (finite_between _ _ Zl (L3 i Hi) Fr) as [K1 K2]. split; auto.
    apply fsum_scale; auto. eapply Rle_trans; [|exact Hm]. apply Rmult_le_compat_l; [lra|]. apply K2. }
  apply lmax_scale; auto.
Qed.

(** * 2-norm *)
Lemma sign_mag : forall x : fl, Bsign x = false -> is_nan x = false -> magnitude x.
Proof. intros x H N. split; auto. destruct x as [[]|[]| |[]]; try discriminate; reflexivity. Qed.
Lemma mag_sign : forall x : fl, magnitude x -> Bsign x = false.
Proof. intros x [A N]. rewrite <- A. destruct x; auto; discriminate. Qed.

Context {O : ops} (M : mags O F).
Notation steps f n := (fold_left (fun st i => step (eabs M (f i)) st) (seq 0 n)).
Notation sfac := (fun st : @sum_of_squares_result F => (scaling_factor st : fl)).
Notation sssq := (fun st : @sum_of_squares_result F => (scaled_sum_of_squares st : fl)).
Definition start : @sum_of_squares_result F := @Ssq F (B754_zero false) (@Bone prec emax Hp He).
Definition fin_mags n (f : nat -> O) : Prop := forall i, (i < n)%nat -> magnitude (emag M (f i)) /\ is_finite (emag M (f i)) = true.

Lemma fin_good : forall n f, fin_mags n f -> good_mags M n f.
Proof. intros n f H i Hi. destruct (H i Hi) as [A B]. split; [exact B|]. apply (mag_R prec emax _ A B). Qed.
Lemma steps_sign : forall n f init, fin_mags n f -> Bsign (sfac init) = false -> Bsign (sfac (steps f n init)) = false.
Proof.
  induction n as [|n IH]; intros f init H Hi; [exact Hi|]. rewrite seq_S, fold_left_app. cbn [fold_left plus].
  specialize (IH f init ltac:(intros i Hlt; apply H; lia) Hi). set (st := fold_left _ _ _) in *.
  unfold pstep. destruct (Beqb _ _); auto. destruct (Bltb _ _); auto. cbn [scaling_factor].
  apply mag_sign. apply (H n ltac:(lia)).
Qed.
Lemma rmax0_ge : forall n g i, (i < n)%nat -> g i <= rmax0 n g.
Proof.
  induction n as [|n IH]; intros g i Hi; [lia|]. simpl. destruct (Nat.eq_dec i n) as [->|]; [apply Rmax_r|].
  eapply Rle_trans; [apply (IH g i); lia|apply Rmax_l].
Qed.
Lemma rmax0_nonneg : forall n g, 0 <= rmax0 n g.
Proof. induction n as [|n IH]; intros g; simpl; [lra|]. eapply Rle_trans; [apply (IH g)|apply Rmax_l]. Qed.
Lemma rmax0_zero : forall n g, (forall i, (i < n)%nat -> g i = 0) -> rmax0 n g = 0.
Proof. induction n as [|n IH]; intros g H; simpl; auto. rewrite (IH g), (H n) by auto. apply Rmax_left. lra. Qed.

(** What is multiplied at the end. *)
Lemma end_state : forall n f, fin_mags n f -> (1 + INR n) * (1 + u) ^ n <= maxf ->
  let st := steps f n start in
  is_finite (sfac st) = true /\ Bsign (sfac st) = false /\ B2R (sfac st) = rmax0 n (fun i => fmag M (f i)) /\
  is_finite (Bsqrt mode_NE (sssq st)) = true /\ 1 <= B2R (Bsqrt mode_NE (sssq st)).
Proof.
  intros n f H Hn st. pose proof (fin_good n f H) as G.
  assert (E1 : B2R (sssq start) = 1) by apply (one_R prec emax Hp He).
  destruct (ssq_inv prec emax Hp He M n f start G eq_refl (one_fin prec emax Hp He)) with (k := n) as (K1 & K2 & K3 & K4 & _); auto.
  { simpl; lra. } { rewrite E1; lra. } { rewrite E1; auto. }
  split; auto. split; [apply steps_sign; auto|]. split.
  - unfold st. rewrite K3. simpl B2R. apply Rmax_right, rmax0_nonneg.
  - apply (sqrt_ge1 prec emax Hp He); auto. cbv beta in *. fold start in K4. apply K4.
Qed.
Lemma end_product : forall n f, fin_mags n f -> (1 + INR n) * (1 + u) ^ n <= maxf ->
  let st := steps f n start in let p := Bmult mode_NE (sfac st) (Bsqrt mode_NE (sssq st)) in
  magnitude p /\ fle (sfac st) p /\ (B2R (sfac st) = 0 -> fzero p).
Proof.
  intros n f H Hn st p. destruct (end_state n f H Hn) as (F1 & S1 & E1 & F2 & G2). fold st in F1, S1, E1, F2, G2.
  set (sc := sfac st) in *. set (w := Bsqrt mode_NE (sssq st)) in *.
  assert (Sw : Bsign w = false).
  { destruct w as [[]|[]| |[] mw ew Bw]; auto; simpl in F2, G2; try discriminate; try lra.
    exfalso. pose proof (F2R_lt_0 radix2 (Float radix2 (Zneg mw) ew) ltac:(reflexivity)) as N. unfold F2R in *; simpl in *. lra. }
  assert (N0 : 0 <= B2R sc) by (rewrite E1; apply rmax0_nonneg).
  pose proof (Bmult_correct prec emax Hp He mode_NE sc w) as K. simpl round_mode in K. fold p in K.
  change (SpecFloat.fexp prec emax) with (FLT_exp (3 - emax - prec) prec) in K.
  rewrite S1, Sw, F1, F2 in K. destruct (Rlt_bool _ _) eqn:C.
  - destruct K as (K1 & K2 & K3).
    assert (Np : is_nan p = false) by (destruct p; auto; discriminate).
    split; [apply sign_mag; auto|]. split.
    + apply (fle_ext prec emax). left. repeat split; auto. rewrite K1. apply (rnd_ge prec emax Hp). nra.
    + intros Z. rewrite Z, Rmult_0_l, round_0 in K1 by auto with typeclass_instances.
      apply (fzero_ext prec emax). destruct p as [s|s| |s mp ep Bp]; try discriminate; eauto.
      exfalso. simpl in K1. apply eq_0_F2R in K1. destruct s; discriminate.
  - assert (Ep : p = B754_infinity false) by (unfold binary_overflow in K; simpl in K; destruct p; simpl in K; try discriminate; congruence).
    rewrite Ep. split; [split; reflexivity|]. split; [apply (fle_pinf prec emax); destruct sc; auto; discriminate|].
    intros Z. exfalso. rewrite Z, Rmult_0_l, round_0, Rabs_R0 in C by auto with typeclass_instances.
    rewrite Rlt_bool_true in C by apply bpow_gt_0. discriminate.
Qed.

Lemma two_norm_bounds : forall (m : mem O) x f (init : fl), vec_holds m x f -> fin_mags (vext x) f ->
  (1 + INR (vext x)) * (1 + u) ^ vext x <= maxf -> fle (B754_zero false) init ->
  returns (vector_two_norm M x init) m (fun r : fl =>
    fle init r /\ (forall i, (i < vext x)%nat -> fle (emag M (f i)) r) /\
    (fzero r <-> fzero init /\ forall i, (i < vext x)%nat -> fzero (emag M (f i)))).
Proof.
  intros m x f init Hx Hf Hn Zi. eexists. split; [apply (two_norm_run prec emax Hp He M m x f init Hx)|].
  change (@Ssq F (B754_zero false) (@Bone prec emax Hp He)) with start.
  destruct (end_state _ f Hf Hn) as (F1 & S1 & E1 & _ & _).
  destruct (end_product _ f Hf Hn) as (P1 & P2 & P3).
  set (st := fold_left _ _ start) in *. set (p := Bmult mode_NE _ _) in *.
  pose proof (zero_upper prec emax _ Zi) as Ui.
  assert (B1 : fle init (Bplus mode_NE init p)) by (apply (plus_ge_l prec emax Hp He); auto).
  assert (Lsc : forall i, (i < vext x)%nat -> fle (emag M (f i)) (sfac st)).
  { intros i Hi. apply (fle_ext prec emax). left. split; [apply (Hf i Hi)|]. split; auto. rewrite E1.
    apply (rmax0_ge (vext x) (fun i => fmag M (f i)) i Hi). }
  assert (B2 : forall i, (i < vext x)%nat -> fle (emag M (f i)) (Bplus mode_NE init p)).
  { intros i Hi. eapply (fle_trans prec emax); [apply Lsc; auto|]. eapply (fle_trans prec emax); [exact P2|].
    apply (plus_ge_r prec emax Hp He); auto. }
  split; auto. split; auto. split.
  - intros Z. split; [eapply (fle_zero prec emax); eauto|]. intros i Hi.
    eapply (fle_zero prec emax); [apply (mag_zero prec emax); apply (Hf i Hi)|apply B2; auto|exact Z].
  - intros [Z1 Z2]. assert (Zp : fzero p).
    { apply P3. rewrite E1. apply rmax0_zero. intros i Hi. specialize (Z2 i Hi). apply (fzero_ext prec emax) in Z2.
      destruct Z2 as [s E]. unfold fmag. unfold emag in E. rewrite E. reflexivity. }
    apply (fzero_ext prec emax) in Z1, Zp. destruct Z1 as [s1 ->], Zp as [s2 ->]. destruct s1, s2; reflexivity.
Qed.

(** * Scaling of the 2-norm *)
Lemma div_same : forall (x y x' y' : fl) c, 0 < c -> is_finite x = true -> is_finite x' = true ->
  Bsign x = Bsign x' -> Bsign y = Bsign y' -> B2R x' = c * B2R x -> B2R y' = c * B2R y -> 0 < B2R y -> 0 <= B2R x <= B2R y ->
  Bdiv mode_NE x' y' = Bdiv mode_NE x y.
Proof.
  intros x y x' y' c Hc Fx Fx' Sx Sy Ex Ey Py Rx.
  assert (Q : B2R x' / B2R y' = B2R x / B2R y) by (rewrite Ex, Ey; field; split; lra).
  assert (R01 : 0 <= B2R x / B2R y <= 1).
  { split; [apply Rmult_le_pos; [lra|apply Rlt_le, Rinv_0_lt_compat; auto]|]. apply Rmult_le_reg_r with (B2R y); auto. field_simplify; lra. }
  pose proof (Bdiv_correct prec emax Hp He mode_NE x y ltac:(lra)) as K.
  pose proof (Bdiv_correct prec emax Hp He mode_NE x' y' ltac:(rewrite Ey; nra)) as K'.
  simpl round_mode in K, K'. change (SpecFloat.fexp prec emax) with (FLT_exp (3 - emax - prec) prec) in K, K'.
  pose proof (rnd_01 prec emax Hp He _ R01) as R1. rewrite Q in K'.
  rewrite Rlt_bool_true in K, K'.
  2,3: rewrite Rabs_pos_eq by lra; apply Rle_lt_trans with 1; [lra|]; change 1 with (bpow radix2 0); apply bpow_lt; unfold Prec_gt_0 in Hp; unfold Prec_lt_emax in He; lia.
  destruct K as (K1 & K2 & K3), K' as (K1' & K2' & K3').
  rewrite Fx in K2. rewrite Fx' in K2'.
  apply B2R_Bsign_inj; auto; [congruence|].
  rewrite K3, K3' by (match goal with |- is_nan ?z = false => destruct z; auto; discriminate end). congruence.
Qed.

Context {O2 : ops} (M2 : mags O2 F).
Notation steps2 f n := (fold_left (fun st i => step (eabs M2 (f i)) st) (seq 0 n)).
Definition scaled_mags e n (f : nat -> O) (g : nat -> O2) : Prop := forall i, (i < n)%nat ->
  magnitude (emag M (f i)) /\ magnitude (emag M2 (g i)) /\ is_finite (emag M (f i)) = true /\ is_finite (emag M2 (g i)) = true /\
  B2R (emag M2 (g i)) = bpow radix2 e * B2R (emag M (f i)).
Lemma steps_scale : forall e n f g, scaled_mags e n f g ->
  let s := steps f n start in let t := steps2 g n start in
  sssq t = sssq s /\ is_finite (sfac s) = true /\ is_finite (sfac t) = true /\ Bsign (sfac s) = false /\ Bsign (sfac t) = false /\
  0 <= B2R (sfac s) /\ B2R (sfac t) = bpow radix2 e * B2R (sfac s).
Proof.
  intros e n f g. pose proof (bpow_gt_0 radix2 e) as Be. induction n as [|n IH]; intros H.
  { simpl. repeat split; auto; lra. }
  cbv zeta. rewrite !seq_S, !fold_left_app. cbn [fold_left plus].
  destruct IH as (I1 & I2 & I3 & I4 & I5 & I6 & I7); [intros i Hi; apply H; lia|].
  set (s := fold_left (fun st i => step (eabs M (f i)) st) _ _) in *. set (t := fold_left (fun st i => step (eabs M2 (g i)) st) _ _) in *.
  destruct (H n ltac:(lia)) as (A1 & A2 & A3 & A4 & A5). unfold emag in *.
  set (a := eabs M (f n) : fl) in *. set (b := eabs M2 (g n) : fl) in *.
  pose proof (mag_R prec emax a A1 A3) as Pa.
  unfold pstep. fold a b.
  rewrite (Beqb_R prec emax a (B754_zero false) A3 eq_refl), (Beqb_R prec emax b (B754_zero false) A4 eq_refl). cbn [B2R].
  destruct (Req_EM_T (B2R a) 0) as [Za|Na].
  { destruct (Req_EM_T (B2R b) 0) as [Zb|Nb]; [|exfalso; apply Nb; rewrite A5, Za; ring]. repeat split; auto. }
  destruct (Req_EM_T (B2R b) 0) as [Zb|Nb]; [exfalso; nra|].
  cbv beta in *.
  rewrite (Bltb_R prec emax (scaling_factor s) a I2 A3), (Bltb_R prec emax (scaling_factor t) b I3 A4).
  destruct (Rlt_dec (B2R (scaling_factor s : fl)) (B2R a)) as [L|L].
  - destruct (Rlt_dec (B2R (scaling_factor t : fl)) (B2R b)) as [L'|L'].
    2: { exfalso. apply L'. rewrite I7, A5. apply Rmult_lt_compat_l; auto. }
    cbv zeta. cbn [scaling_factor scaled_sum_of_squares].
    rewrite (div_same (scaling_factor s) a (scaling_factor t) b (bpow radix2 e)); auto; try congruence; try lra.
    2: { rewrite (mag_sign a), (mag_sign b); auto. }
    rewrite I1. repeat split; auto; apply mag_sign; auto.
  - destruct (Rlt_dec (B2R (scaling_factor t : fl)) (B2R b)) as [L'|L'].
    { exfalso. apply L. rewrite I7, A5 in L'. apply Rmult_lt_reg_l with (bpow radix2 e); auto. }
    cbv zeta. cbn [scaling_factor scaled_sum_of_squares].
    rewrite (div_same a (scaling_factor s) b (scaling_factor t) (bpow radix2 e)); auto; try congruence; try lra.
    2: { rewrite (mag_sign a), (mag_sign b); auto. }
    rewrite I1. repeat split; auto.
Qed.

Lemma plus_zero_l : forall p : fl, magnitude p -> Bplus mode_NE (B754_zero false) p = p.
Proof. intros [[]|[]| |] [A N]; try discriminate; reflexivity. Qed.

Lemma two_norm_scale : forall (m : mem O) (m' : mem O2) x y f g e, vec_holds m x f -> vec_holds m' y g -> vext y = vext x ->
  scaled_mags e (vext x) f g -> (1 + INR (vext x)) * (1 + u) ^ vext x <= maxf ->
  (exists i, (i < vext x)%nat /\ min_normal emax <= fmag M (f i) /\ min_normal emax <= fmag M2 (g i)) ->
  exists r r' : fl, run (vector_two_norm_noinit M x) m = Ok r m /\ run (vector_two_norm_noinit M2 y) m' = Ok r' m' /\
    (is_finite r = true -> bpow radix2 e * B2R r <= maxf -> is_finite r' = true /\ B2R r' = bpow radix2 e * B2R r).
Proof.
  intros m m' x y f g e Hx Hy Exy H Hn (i0 & Hi0 & N1 & N2). pose proof (bpow_gt_0 radix2 e) as Be.
  eexists. eexists. split; [apply (two_norm_run prec emax Hp He M m x f (B754_zero false) Hx)|].
  split; [apply (two_norm_run prec emax Hp He M2 m' y g (B754_zero false) Hy)|]. rewrite Exy.
  change (@Ssq F (B754_zero false) (@Bone prec emax Hp He)) with start.
  assert (Hf : fin_mags (vext x) f) by (intros i Hi; destruct (H i Hi) as (K1 & _ & K2 & _); auto).
  destruct (end_state _ f Hf Hn) as (F1 & S1 & E1 & F2 & G2).
  destruct (end_product _ f Hf Hn) as (P1 & P2 & P3).
  destruct (steps_scale e _ f g H) as (Q1 & _ & Q3 & _ & Q5 & Q6 & Q7).
  set (st := fold_left (fun st i => step (eabs M (f i)) st) _ start) in *. set (st' := fold_left (fun st i => step (eabs M2 (g i)) st) _ start) in *.
  cbv beta in *. rewrite Q1. set (w := Bsqrt mode_NE _) in *.
  set (p := Bmult mode_NE (scaling_factor st : fl) w) in *. rewrite (plus_zero_l p) by auto.
  assert (Ge : fmag M (f i0) <= B2R (scaling_factor st : fl)).
  { rewrite E1. apply (rmax0_ge _ (fun i => fmag M (f i)) i0 Hi0). }
  intros Fp Hm.
  assert (Ep : B2R p = rnd (B2R (scaling_factor st : fl) * B2R w)).
  { pose proof (Bmult_correct prec emax Hp He mode_NE (scaling_factor st : fl) w) as K. simpl round_mode in K. fold p in K.
    change (SpecFloat.fexp prec emax) with (FLT_exp (3 - emax - prec) prec) in K.
    destruct (Rlt_bool _ _); [tauto|]. destruct p; discriminate. }
  assert (Pm : 0 < min_normal emax) by apply bpow_gt_0.
  assert (Em : fmag M2 (g i0) = bpow radix2 e * fmag M (f i0)) by (apply (H i0 Hi0)).
  assert (Ew : B2R (scaling_factor st : fl) <= B2R (scaling_factor st : fl) * B2R w) by nra.
  assert (Er : rnd (B2R (scaling_factor st' : fl) * B2R w) = bpow radix2 e * B2R p).
  { rewrite Ep, Q7, Rmult_assoc. apply rnd_scale.
    - rewrite Rabs_pos_eq by lra. lra.
    - rewrite Rabs_pos_eq by (apply Rmult_le_pos; lra). eapply Rle_trans; [exact N2|]. rewrite Em. apply Rmult_le_compat_l; lra. }
  pose proof (Bmult_correct prec emax Hp He mode_NE (scaling_factor st' : fl) w) as K. simpl round_mode in K.
  change (SpecFloat.fexp prec emax) with (FLT_exp (3 - emax - prec) prec) in K.
  set (p' := Bmult mode_NE (scaling_factor st' : fl) w) in *.
  assert (Pp : 0 <= B2R p) by (apply (mag_R prec emax); auto).
  rewrite Er, Rlt_bool_true in K.
  2: { rewrite Rabs_pos_eq by (apply Rmult_le_pos; lra). pose proof maxf_lt. lra. }
  destruct K as (K1 & K2 & K3). rewrite Q3, F2 in K2. simpl in K2.
  assert (Mp : magnitude p').
  { apply sign_mag; [|destruct p'; auto; discriminate]. rewrite K3 by (destruct p'; auto; discriminate). rewrite Q5.
    destruct w as [[]|[]| |[] mw ew Bw]; auto; simpl in F2, G2; try discriminate; try lra.
    exfalso. pose proof (F2R_lt_0 radix2 (Float radix2 (Zneg mw) ew) ltac:(reflexivity)) as N. unfold F2R in *; simpl in *. lra. }
  rewrite (plus_zero_l p' Mp). auto.
Qed.
End Pf.

(** Residual of triangular solves in IEEE arithmetic. *)
From Coq Require Import List ZArith Reals Lia Lra Psatz Bool.
From Flocq Require Import Core.Core IEEE754.BinarySingleNaN.
From Verif Require Import Mem Scalar View Spec SpecR SpecF SpecSub Norm Ieee Wp Sums PfIeee.
Local Open Scope R_scope.

Lemma rsum_ext : forall n f g, (forall k, (k < n)%nat -> f k = g k) -> rsum n f = rsum n g.
Proof. induction n; intros; simpl; auto. rewrite (IHn f g), (H n); auto. Qed.
Lemma rsum_split : forall p q f, rsum (p + q) f = rsum p f + rsum q (fun k => f (p + k)%nat).
Proof.
  intros p q f; induction q; simpl.
  - rewrite Nat.add_0_r. ring.
  - rewrite Nat.add_succ_r. simpl. rewrite IHq. ring.
Qed.
Lemma rsum_0 : forall n f, (forall k, (k < n)%nat -> f k = 0) -> rsum n f = 0.
Proof. induction n; intros; simpl; auto. rewrite IHn, H; auto; lra. Qed.

Section Ieee.
Variables prec emax : Z.
Context (Hp : Prec_gt_0 prec) (He : Prec_lt_emax prec emax).
Notation fl := (binary_float prec emax).
Notation u := (unit_roundoff prec).
Notation eta := (half_tiny prec emax).
Notation v := (v prec).
Notation O := (ieee_ops prec emax Hp He).
Notation bdiffs s lo n a b := (@diffs O s lo n (fun k => @mul O (a k) (b k))).

Lemma diffs_S : forall (s : fl) lo n f, @diffs O s lo (S n) f = Bminus mode_NE (@diffs O s lo n f) (f (lo + n)%nat).
Proof. intros; unfold diffs. rewrite seq_S, fold_left_app; reflexivity. Qed.

Lemma inv_err : forall d, Rabs d <= v -> exists d', Rabs d' <= u /\ (1 + d) * (1 + d') = 1.
Proof.
  intros d H. destruct (v_bounds prec) as (V0 & V1 & V2 & V3). pose proof (u_pos prec) as U.
  apply abs_bound in H. exists (/ (1 + d) - 1). split; [|field; lra].
  assert (0 < 1 - v) by lra. assert (0 < 1 + d) by lra.
  assert (/ (1 + d) <= 1 + u). { rewrite <- V3. apply Rinv_le; lra. }
  assert (v * (1 + u) = u) as VU. { unfold PfIeee.v. field. lra. }
  assert (1 - u <= / (1 + d)).
  { apply Rmult_le_reg_r with (1 + d); auto. rewrite Rinv_l by lra. nra. }
  apply Rabs_le. lra.
Qed.

Lemma diffs_err : forall n (s : fl) lo (a b : nat -> fl), is_finite (bdiffs s lo n a b) = true ->
  is_finite s = true /\ (forall k, (k < n)%nat -> is_finite (a (lo + k)%nat) = true /\ is_finite (b (lo + k)%nat) = true) /\
  Rabs (B2R s - (rsum n (fun k => B2R (a (lo + k)%nat) * B2R (b (lo + k)%nat)) + B2R (bdiffs s lo n a b)))
  <= gam prec n * (rsum n (fun k => Rabs (B2R (a (lo + k)%nat)) * Rabs (B2R (b (lo + k)%nat))) + Rabs (B2R (bdiffs s lo n a b)))
     + tiny prec emax n n.
Proof.
  induction n as [|n IH]; intros s lo a b H.
  - change (bdiffs s lo 0 a b) with s in *. repeat split; auto; try (intros; lia). simpl.
    replace (B2R s - (0 + B2R s)) with 0 by ring. rewrite Rabs_R0. unfold gam, tiny. simpl. lra.
  - rewrite diffs_S in *. set (S0 := bdiffs s lo n a b) in *.
    change (@mul O) with (@Bmult prec emax _ _ mode_NE) in *.
    destruct (Bminus_fin _ _ _ _ _ _ H) as (F1 & F2 & e & E1 & E2).
    destruct (Bmult_fin _ _ _ _ _ _ F2) as (F3 & F4 & e' & h & E3 & E4 & _ & E5).
    destruct (IH s lo a b F1) as (Fs & Fab & B). fold S0 in B.
    split; auto. split.
    { intros k Hk. destruct (Nat.eq_dec k n) as [->|]; auto. apply Fab; lia. }
    destruct (inv_err e E1) as (d' & D1 & D2).
    set (S1 := B2R (Bminus mode_NE S0 (Bmult mode_NE (a (lo + n)%nat) (b (lo + n)%nat)))) in *.
    set (x := B2R (a (lo + n)%nat) * B2R (b (lo + n)%nat)) in *.
    set (p := B2R (Bmult mode_NE (a (lo + n)%nat) (b (lo + n)%nat))) in *.
    assert (ES : B2R S0 = p + S1 * (1 + d')). { rewrite E2, Rmult_assoc, D2. ring. }
    cbn [rsum]. fold x. set (R := rsum n (fun k => B2R (a (lo + k)%nat) * B2R (b (lo + k)%nat))) in *.
    set (Q := rsum n (fun k => Rabs (B2R (a (lo + k)%nat)) * Rabs (B2R (b (lo + k)%nat)))) in *.
    rewrite <- Rabs_mult. fold x.
    assert (HQ : 0 <= Q) by (apply (prods_nonneg prec emax n (fun k => a (lo + k)%nat) (fun k => b (lo + k)%nat))).
    replace (B2R s - (R + x + S1)) with ((B2R s - (R + B2R S0)) + (x * e' + h) + S1 * d') by (rewrite ES, E5; ring).
    eapply Rle_trans; [apply Rabs_triang|]. eapply Rle_trans; [apply Rplus_le_compat_r, Rabs_triang|].
    destruct (v_bounds prec) as (V0 & V1 & V2 & _). pose proof (u_pos prec) as U. pose proof (eta_pos prec emax) as ET.
    pose proof (Rabs_pos x) as Px. pose proof (Rabs_pos S1) as PS. pose proof (pow_ge1 prec n) as W1.
    assert (A1 : Rabs (x * e' + h) <= Rabs x * u + eta).
    { eapply Rle_trans; [apply Rabs_triang|]. rewrite Rabs_mult. apply Rplus_le_compat; auto. apply Rmult_le_compat_l; lra. }
    assert (A2 : Rabs (S1 * d') <= Rabs S1 * u). { rewrite Rabs_mult. apply Rmult_le_compat_l; lra. }
    assert (A3 : Rabs (B2R S0) <= Rabs x * (1 + u) + eta + Rabs S1 * (1 + u)).
    { rewrite ES, E5. replace (x * (1 + e') + h + S1 * (1 + d')) with (x + (x * e' + h) + S1 + S1 * d') by ring.
      eapply Rle_trans; [apply Rabs_triang|]. eapply Rle_trans; [apply Rplus_le_compat_r, Rabs_triang|].
      eapply Rle_trans; [apply Rplus_le_compat_r, Rplus_le_compat_r, Rabs_triang|]. lra. }
    pose proof (tiny_S prec emax n) as HT. unfold gam in *. simpl pow.
    set (W := (1 + u) ^ n) in *.
    assert (HT2 : tiny prec emax n n + W * eta <= tiny prec emax (S n) (S n)).
    { unfold tiny. rewrite S_INR. simpl pow. fold W. pose proof (pos_INR n).
      assert (0 <= INR n * eta * W * u) by (apply Rmult_le_pos; [apply Rmult_le_pos; [apply Rmult_le_pos|]|]; lra).
      assert (0 <= eta * W * u) by (apply Rmult_le_pos; [apply Rmult_le_pos|]; lra).
      replace ((INR n + 1) * eta * ((1 + u) * W)) with (INR n * eta * W + INR n * eta * W * u + eta * W + eta * W * u) by ring. lra. }
    assert (A4 : (W - 1) * Rabs (B2R S0) <= (W - 1) * (Rabs x * (1 + u) + eta + Rabs S1 * (1 + u))) by (apply Rmult_le_compat_l; lra).
    assert (A5 : (W - 1) * Q <= ((1 + u) * W - 1) * Q) by (apply Rmult_le_compat_r; nra).
    nra.
Qed.

(** After the division by the diagonal element t. *)
Lemma quotient_err : forall n (s : fl) lo (a b : nat -> fl) (t : fl),
  is_finite (Bdiv mode_NE (bdiffs s lo n a b) t) = true -> is_finite t = true ->
  is_finite s = true /\ B2R t <> 0 /\
  let x := B2R (Bdiv mode_NE (bdiffs s lo n a b) t) in
  Rabs (B2R s - (rsum n (fun k => B2R (a (lo + k)%nat) * B2R (b (lo + k)%nat)) + B2R t * x))
  <= gam prec (n + 1) * (rsum n (fun k => Rabs (B2R (a (lo + k)%nat)) * Rabs (B2R (b (lo + k)%nat))) + Rabs (B2R t * x))
     + tiny prec emax n n + tiny prec emax 1 n * Rabs (B2R t).
Proof.
  intros n s lo a b t H Ft. destruct (Bdiv_fin _ _ _ _ _ _ H Ft) as (F1 & Nt & e & h & E1 & E2 & E3 & E4).
  destruct (diffs_err n s lo a b F1) as (Fs & _ & B). split; auto. split; auto. intros x.
  change (B2R (Bdiv mode_NE (bdiffs s lo n a b) t)) with x in E4.
  set (S1 := B2R (bdiffs s lo n a b)) in *.
  set (R := rsum n (fun k => B2R (a (lo + k)%nat) * B2R (b (lo + k)%nat))) in *.
  set (Q := rsum n (fun k => Rabs (B2R (a (lo + k)%nat)) * Rabs (B2R (b (lo + k)%nat)))) in *.
  assert (HQ : 0 <= Q) by (apply (prods_nonneg prec emax n (fun k => a (lo + k)%nat) (fun k => b (lo + k)%nat))).
  pose proof (u_pos prec) as U. pose proof (eta_pos prec emax) as ET. pose proof (pow_ge1 prec n) as W1.
  set (T := B2R t) in *. pose proof (Rabs_pos (T * x)) as PTx. pose proof (Rabs_pos T) as PT.
  assert (D : Rabs (S1 - T * x) <= u * Rabs (T * x) + eta * Rabs T).
  { destruct (Rmult_integral _ _ E3) as [Z|Z]; subst.
    - assert (S1 - T * x = - (T * h)) as ->. { rewrite E4. field. auto. }
      rewrite Rabs_Ropp, Rabs_mult. assert (Rabs T * Rabs h <= Rabs T * eta) by (apply Rmult_le_compat_l; lra). nra.
    - destruct (inv_err e E1) as (d' & D1 & D2).
      assert (S1 = T * x * (1 + d')) as ->. { rewrite E4. replace (T * (S1 / T * (1 + e) + 0) * (1 + d')) with (S1 * ((1 + e) * (1 + d'))) by (field; auto). rewrite D2. ring. }
      replace (T * x * (1 + d') - T * x) with (T * x * d') by ring. rewrite Rabs_mult.
      assert (Rabs (T * x) * Rabs d' <= Rabs (T * x) * u) by (apply Rmult_le_compat_l; lra). nra. }
  assert (D2 : Rabs S1 <= Rabs (T * x) + (u * Rabs (T * x) + eta * Rabs T)).
  { replace S1 with (T * x + (S1 - T * x)) by ring. eapply Rle_trans; [apply Rabs_triang|]. lra. }
  replace (B2R s - (R + T * x)) with ((B2R s - (R + S1)) + (S1 - T * x)) by ring.
  eapply Rle_trans; [apply Rabs_triang|]. unfold gam, tiny in *. rewrite pow_add. simpl (INR 1). simpl ((1 + u) ^ 1).
  set (W := (1 + u) ^ n) in *. set (Y := INR n * eta * W) in *.
  assert (A4 : (W - 1) * Rabs S1 <= (W - 1) * (Rabs (T * x) + (u * Rabs (T * x) + eta * Rabs T))) by (apply Rmult_le_compat_l; lra).
  assert (A5 : (W - 1) * Q <= (W * (1 + u) - 1) * Q) by (apply Rmult_le_compat_r; nra).
  nra.
Qed.

Lemma gam_mono : forall k n, (k <= n)%nat -> gam prec k <= gam prec n.
Proof. intros. unfold gam. pose proof (pow_mono prec k n H). lra. Qed.
Lemma gam_nonneg : forall n, 0 <= gam prec n.
Proof. intros. unfold gam. pose proof (pow_ge1 prec n). lra. Qed.
Lemma tiny_mono : forall k k' n n', (k <= k')%nat -> (n <= n')%nat -> tiny prec emax k n <= tiny prec emax k' n'.
Proof.
  intros. unfold tiny. pose proof (eta_pos prec emax). apply Rmult_le_compat; [|pose proof (pow_ge1 prec n); lra| |apply pow_mono; auto].
  - apply Rmult_le_pos; [apply pos_INR|lra].
  - apply Rmult_le_compat_r; [lra|]. apply le_INR; auto.
Qed.

(** The real matrix described by triangle t. *)
Notation RT t d a := (@tri_of real_ops t d (fun i j => B2R (a i j))).

Lemma row_split : forall (t : triangle) (d : diagonal) n (a : nat -> nat -> fl) i (w : nat -> R) (F : R -> R -> R),
  (i < n)%nat -> (forall y, F 0 y = 0) ->
  rsum n (fun j => F (RT t d a i j) (w j)) =
  rsum (sub_len t n i) (fun k => F (B2R (a i (sub_lo t i + k)%nat)) (w (sub_lo t i + k)%nat)) + F (RT t d a i i) (w i).
Proof.
  intros t d n a i w F Hi F0. destruct t; cbn [sub_len sub_lo].
  - replace n with (i + (1 + (n - i - 1)))%nat by lia. rewrite !rsum_split. cbn [rsum].
    rewrite (rsum_0 (n - i - 1)).
    2: { intros k Hk. unfold tri_of. destruct (Nat.eqb_spec i (i + (1 + k))%nat); [lia|].
         unfold in_tri_b. destruct (Nat.leb_spec (i + (1 + k))%nat i); [lia|]. apply F0. }
    rewrite !Nat.add_0_r. rewrite (rsum_ext i _ (fun k => F (B2R (a i (0 + k)%nat)) (w (0 + k)%nat))).
    2: { intros k Hk. unfold tri_of. destruct (Nat.eqb_spec i k); [lia|]. unfold in_tri_b.
         destruct (Nat.leb_spec k i); [|lia]. reflexivity. }
    ring.
  - replace (rsum n) with (rsum (i + (1 + (n - (i + 1))))) by (f_equal; lia). rewrite !rsum_split. cbn [rsum].
    rewrite (rsum_0 i).
    2: { intros k Hk. unfold tri_of. destruct (Nat.eqb_spec i k); [lia|].
         unfold in_tri_b. destruct (Nat.leb_spec i k); [lia|]. apply F0. }
    rewrite !Nat.add_0_r. rewrite (rsum_ext (n - (i + 1)) _ (fun k => F (B2R (a i (i + 1 + k)%nat)) (w (i + 1 + k)%nat))).
    2: { intros k Hk. unfold tri_of. replace (i + (1 + k))%nat with (i + 1 + k)%nat by lia.
         destruct (Nat.eqb_spec i (i + 1 + k)%nat); [lia|]. unfold in_tri_b.
         destruct (Nat.leb_spec i (i + 1 + k)%nat); [|lia]. reflexivity. }
    ring.
Qed.

Lemma subst_residual : forall t d n (a : nat -> nat -> fl) (b f : nat -> fl),
  (forall i, (i < n)%nat -> f i = @subst_value O (@Bdiv prec emax Hp He mode_NE) t d n a b f i) ->
  (d = Explicit -> forall i, (i < n)%nat -> is_finite (a i i) = true) -> all_finite n f ->
  forall i, (i < n)%nat ->
  is_finite (b i) = true /\ RT t d a i i <> 0 /\
  Rabs (rsum n (fun j => RT t d a i j * B2R (f j)) - B2R (b i))
  <= gam prec n * rsum n (fun j => Rabs (RT t d a i j) * Rabs (B2R (f j)))
     + tiny prec emax n n + tiny prec emax 1 n * Rabs (RT t d a i i).
Proof.
  intros t d n a b f Hf Ha Ff i Hi. pose proof (Hf i Hi) as E. pose proof (Ff i Hi) as Fi.
  rewrite (row_split t d n a i (fun j => B2R (f j)) Rmult Hi) by (intros; ring).
  rewrite (row_split t d n a i (fun j => B2R (f j)) (fun x y => Rabs x * Rabs y) Hi) by (intros; rewrite Rabs_R0; ring).
  set (lo := sub_lo t i) in *. set (k := sub_len t n i) in *.
  assert (Hk : (k + 1 <= n)%nat) by (unfold k; destruct t; simpl; lia).
  pose proof (prods_nonneg prec emax k (fun l => a i (lo + l)%nat) (fun l => f (lo + l)%nat)) as PQ. cbv beta in PQ.
  unfold subst_value in E. fold lo k in E.
  assert (HD : RT t d a i i = match d with Explicit => B2R (a i i) | ImplicitUnit => 1 end).
  { unfold tri_of. rewrite Nat.eqb_refl. destruct d; reflexivity. }
  rewrite HD. clear HD. destruct d.
  - rewrite E in Fi. destruct (quotient_err k (b i) lo (a i) f (a i i) Fi (Ha eq_refl i Hi)) as (Fb & Nz & B).
    rewrite <- E in B. cbv zeta in B. split; auto. split; auto. rewrite Rabs_minus_sym.
    eapply Rle_trans; [exact B|]. rewrite (Rabs_mult (B2R (a i i))).
    apply Rplus_le_compat; [apply Rplus_le_compat|].
    + apply Rmult_le_compat_r; [|apply gam_mono; auto].
      assert (0 <= Rabs (B2R (a i i)) * Rabs (B2R (f i))) by (apply Rmult_le_pos; apply Rabs_pos). lra.
    + apply tiny_mono; lia.
    + apply Rmult_le_compat_r; [apply Rabs_pos|]. apply tiny_mono; lia.
  - rewrite E in Fi. destruct (diffs_err k (b i) lo (a i) f Fi) as (Fb & _ & B).
    rewrite <- E in B. split; auto. split; [lra|]. rewrite Rabs_R1, !Rmult_1_l, Rmult_1_r. rewrite Rabs_minus_sym.
    eapply Rle_trans; [exact B|]. rewrite Rplus_assoc. apply Rplus_le_compat.
    + apply Rmult_le_compat_r; [|apply gam_mono; lia]. pose proof (Rabs_pos (B2R (f i))). lra.
    + pose proof (tiny_mono k n k n ltac:(lia) ltac:(lia)). pose proof (tiny_nonneg prec emax 1 n). lra.
Qed.

Definition opp (t : triangle) : triangle := match t with Lower => Upper | Upper => Lower end.
Lemma tri_opp : forall t d (a : nat -> nat -> R) i j, @tri_of real_ops t d a i j = @tri_of real_ops (opp t) d (fun i j => a j i) j i.
Proof.
  intros. unfold tri_of. rewrite (Nat.eqb_sym j i). destruct (Nat.eqb_spec i j) as [->|]; [reflexivity|]. destruct t; reflexivity.
Qed.

Lemma subst_residual_r : forall t d n (a : nat -> nat -> fl) (b f : nat -> fl),
  (forall j, (j < n)%nat -> f j = @subst_value_r O t d n a b f j) ->
  (d = Explicit -> forall i, (i < n)%nat -> is_finite (a i i) = true) -> all_finite n f ->
  forall j, (j < n)%nat ->
  is_finite (b j) = true /\ RT t d a j j <> 0 /\
  Rabs (rsum n (fun k => B2R (f k) * RT t d a k j) - B2R (b j))
  <= gam prec n * rsum n (fun k => Rabs (B2R (f k)) * Rabs (RT t d a k j))
     + tiny prec emax n n + tiny prec emax 1 n * Rabs (RT t d a j j).
Proof.
  intros t d n a b f Hf Ha Ff i Hi. pose proof (Hf i Hi) as E. pose proof (Ff i Hi) as Fi.
  set (at_ := fun i j => a j i).
  rewrite (rsum_ext n _ (fun k => RT (opp t) d at_ i k * B2R (f k))).
  2: { intros k Hk. rewrite tri_opp. apply Rmult_comm. }
  rewrite (rsum_ext n (fun k => Rabs (B2R (f k)) * Rabs _) (fun k => Rabs (RT (opp t) d at_ i k) * Rabs (B2R (f k)))).
  2: { intros k Hk. rewrite tri_opp. apply Rmult_comm. }
  rewrite (tri_opp t d _ i i). fold at_.
  rewrite (row_split (opp t) d n at_ i (fun j => B2R (f j)) Rmult Hi) by (intros; ring).
  rewrite (row_split (opp t) d n at_ i (fun j => B2R (f j)) (fun x y => Rabs x * Rabs y) Hi) by (intros; rewrite Rabs_R0; ring).
  unfold subst_value_r in E. fold (opp t) in E.
  set (lo := sub_lo (opp t) i) in *. set (k := sub_len (opp t) n i) in *.
  assert (Hk : (k + 1 <= n)%nat) by (unfold k; destruct t; simpl; lia).
  pose proof (prods_nonneg prec emax k (fun l => at_ i (lo + l)%nat) (fun l => f (lo + l)%nat)) as PQ. cbv beta in PQ.
  match goal with |- context [@tri_of real_ops (opp t) d ?A i i] => assert (HD : @tri_of real_ops (opp t) d A i i = match d with Explicit => B2R (at_ i i) | ImplicitUnit => 1 end) end.
  { unfold tri_of. rewrite Nat.eqb_refl. destruct d; reflexivity. }
  rewrite HD. clear HD. destruct d.
  - rewrite E in Fi. destruct (quotient_err k (b i) lo f (at_ i) (at_ i i) Fi (Ha eq_refl i Hi)) as (Fb & Nz & B).
    cbv zeta in B. change (Bdiv mode_NE (bdiffs (b i) lo k f (at_ i)) (at_ i i)) with
      (@div O (@diffs O (b i) lo k (fun k => @mul O (f k) (a k i))) (a i i)) in B. rewrite <- E in B.
    rewrite (rsum_ext k _ (fun l => B2R (at_ i (lo + l)%nat) * B2R (f (lo + l)%nat))) in B by (intros; apply Rmult_comm).
    rewrite (rsum_ext k (fun l => Rabs _ * Rabs _) (fun l => Rabs (B2R (at_ i (lo + l)%nat)) * Rabs (B2R (f (lo + l)%nat)))) in B by (intros; apply Rmult_comm).
    change (RT (opp t) Explicit at_ i i) with (@tri_of real_ops (opp t) Explicit (fun i j => B2R (at_ i j)) i i).
    assert (HE : @tri_of real_ops (opp t) Explicit (fun i j => B2R (at_ i j)) i i = B2R (at_ i i)) by (unfold tri_of; rewrite Nat.eqb_refl; reflexivity).
    rewrite HE.
    split; auto. split; auto. rewrite Rabs_minus_sym.
    eapply Rle_trans; [exact B|]. rewrite (Rabs_mult (B2R (at_ i i))).
    apply Rplus_le_compat; [apply Rplus_le_compat|].
    + apply Rmult_le_compat_r; [|apply gam_mono; auto].
      assert (0 <= Rabs (B2R (at_ i i)) * Rabs (B2R (f i))) by (apply Rmult_le_pos; apply Rabs_pos). lra.
    + apply tiny_mono; lia.
    + apply Rmult_le_compat_r; [apply Rabs_pos|]. apply tiny_mono; lia.
  - rewrite E in Fi. destruct (diffs_err k (b i) lo f (at_ i) Fi) as (Fb & _ & B).
    change (bdiffs (b i) lo k f (at_ i)) with (@diffs O (b i) lo k (fun k => @mul O (f k) (a k i))) in B. rewrite <- E in B.
    rewrite (rsum_ext k _ (fun l => B2R (at_ i (lo + l)%nat) * B2R (f (lo + l)%nat))) in B by (intros; apply Rmult_comm).
    rewrite (rsum_ext k (fun l => Rabs _ * Rabs _) (fun l => Rabs (B2R (at_ i (lo + l)%nat)) * Rabs (B2R (f (lo + l)%nat)))) in B by (intros; apply Rmult_comm).
    assert (HE : @tri_of real_ops (opp t) ImplicitUnit (fun i j => B2R (at_ i j)) i i = 1) by (unfold tri_of; rewrite Nat.eqb_refl; reflexivity).
    rewrite HE.
    split; auto. split; [lra|]. rewrite Rabs_R1, !Rmult_1_l, Rmult_1_r. rewrite Rabs_minus_sym.
    eapply Rle_trans; [exact B|]. rewrite Rplus_assoc. apply Rplus_le_compat.
    + apply Rmult_le_compat_r; [|apply gam_mono; lia]. pose proof (Rabs_pos (B2R (f i))). lra.
    + pose proof (tiny_mono k n k n ltac:(lia) ltac:(lia)). pose proof (tiny_nonneg prec emax 1 n). lra.
Qed.
End Ieee.

(** Residual of triangular solves when products may be fused with the subtractions. *)
From Coq Require Import List Arith ZArith Reals Lia Lra Psatz Bool.
From Flocq Require Import Core.Core IEEE754.BinarySingleNaN.
From Verif Require Import Mem Scalar View Spec SpecR SpecF SpecSub SpecRel Idx Norm Ieee Blas2 Blas3 Wp Sums PfIeee PfIeeeSub PfFma PfSub Fma SpecFma Trace SpecTrace.
Local Open Scope R_scope.

Section Ieee.
Variables prec emax : Z.
Context (Hp : Prec_gt_0 prec) (He : Prec_lt_emax prec emax).
Notation fl := (binary_float prec emax).
Notation u := (unit_roundoff prec).
Notation eta := (half_tiny prec emax).
Notation v := (v prec).
Notation inv_err := (inv_err prec).
Notation gam_mono := (gam_mono prec).
Notation tiny_mono := (tiny_mono prec emax).
Notation row_split := (row_split prec emax).

(** s - a b, rounded twice or once *)
Definition dstep (s a b r : fl) : Prop := r = Bminus mode_NE s (Bmult mode_NE a b) \/ r = Bfma mode_NE (Bopp a) b s.
Definition chain (n : nat) (P : nat -> fl) (lo : nat) (a b : nat -> fl) : Prop :=
  forall k, (k < n)%nat -> dstep (P k) (a (lo + k)%nat) (b (lo + k)%nat) (P (S k)).
Lemma step_err : forall s a b r : fl, dstep s a b r -> is_finite r = true ->
  is_finite s = true /\
  Rabs (B2R s - (B2R a * B2R b + B2R r)) <= Rabs (B2R a * B2R b) * u + eta + Rabs (B2R r) * u.
Proof.
  intros s a b r H F. pose proof (u_pos prec) as U. pose proof (eta_pos prec emax) as ET. destruct (v_bounds prec) as (V0 & V1 & V2 & _).
  set (x := B2R a * B2R b) in *. pose proof (Rabs_pos x) as Px. pose proof (Rabs_pos (B2R r)) as PS. destruct H as [->| ->].
  - destruct (Bminus_fin _ _ _ _ _ _ F) as (F1 & F2 & e & E1 & E2).
    destruct (Bmult_fin _ _ _ _ _ _ F2) as (F3 & F4 & e' & h & E3 & E4 & _ & E5). split; auto.
    destruct (inv_err e E1) as (d' & D1 & D2).
    set (S1 := B2R (Bminus mode_NE s (Bmult mode_NE a b))) in *.
    set (p := B2R (Bmult mode_NE a b)) in *.
    assert (ES : B2R s = p + S1 * (1 + d')). { rewrite E2, Rmult_assoc, D2. ring. }
    replace (B2R s - (x + S1)) with ((x * e' + h) + S1 * d') by (rewrite ES, E5; unfold x; ring).
    eapply Rle_trans; [apply Rabs_triang|].
    assert (A1 : Rabs (x * e' + h) <= Rabs x * u + eta).
    { eapply Rle_trans; [apply Rabs_triang|]. rewrite Rabs_mult. apply Rplus_le_compat; auto. apply Rmult_le_compat_l; lra. }
    assert (A2 : Rabs (S1 * d') <= Rabs S1 * u). { rewrite Rabs_mult. apply Rmult_le_compat_l; lra. }
    lra.
  - assert (is_finite (Bopp a) = true /\ is_finite b = true /\ is_finite s = true) as (Fa & Fb & Fs).
    { destruct (Bfma_fin prec emax Hp He _ _ _ F) as (K1 & K2 & K3 & _). auto. }
    split; auto. pose proof (Bfma_correct prec emax Hp He mode_NE (Bopp a) b s Fa Fb Fs) as K. cbv zeta in K.
    set (S1 := B2R (Bfma mode_NE (Bopp a) b s)) in *.
    destruct (Rlt_bool _ _).
    2: { eapply overflow_inf in K; auto. congruence. }
    destruct K as (K & _). destruct (rnd_ex prec emax Hp (B2R (Bopp a) * B2R b + B2R s)) as (e & h & K1 & K2 & K3 & K4).
    assert (E : S1 = (B2R s - x) * (1 + e) + h).
    { unfold S1. etransitivity; [exact K|]. etransitivity; [exact K4|]. rewrite B2R_Bopp. unfold x. ring. }
    assert (0 <= Rabs x * u) by (apply Rmult_le_pos; lra).
    destruct (Rmult_integral _ _ K3) as [Z|Z]; subst.
    + replace (B2R s - (x + S1)) with (- h) by (rewrite E; ring). rewrite Rabs_Ropp.
      assert (0 <= Rabs S1 * u) by (apply Rmult_le_pos; lra). lra.
    + destruct (inv_err e K1) as (d' & D1 & D2).
      assert (B2R s - x = S1 * (1 + d')) as E'. { rewrite E, Rplus_0_r, Rmult_assoc, D2. ring. }
      replace (B2R s - (x + S1)) with (S1 * d') by lra. rewrite Rabs_mult.
      assert (Rabs S1 * Rabs d' <= Rabs S1 * u) by (apply Rmult_le_compat_l; lra). lra.
Qed.
Lemma chain_err : forall n (P : nat -> fl) lo (a b : nat -> fl), chain n P lo a b -> is_finite (P n) = true ->
  is_finite (P O) = true /\
  Rabs (B2R (P O) - (rsum n (fun k => B2R (a (lo + k)%nat) * B2R (b (lo + k)%nat)) + B2R (P n)))
  <= gam prec n * (rsum n (fun k => Rabs (B2R (a (lo + k)%nat)) * Rabs (B2R (b (lo + k)%nat))) + Rabs (B2R (P n)))
     + tiny prec emax n n.
Proof.
  induction n as [|n IH]; intros P lo a b HC H.
  - split; auto. simpl. replace (B2R (P O) - (0 + B2R (P O))) with 0 by ring. rewrite Rabs_R0. unfold gam, tiny. simpl. lra.
  - destruct (step_err _ _ _ _ (HC n ltac:(lia)) H) as (F1 & E).
    destruct (IH P lo a b (fun k Hk => HC k ltac:(lia)) F1) as (Fs & B). split; auto.
    set (S1 := B2R (P (S n))) in *. set (S0 := B2R (P n)) in *. set (s := B2R (P O)) in *.
    set (x := B2R (a (lo + n)%nat) * B2R (b (lo + n)%nat)) in *.
    cbn [rsum]. fold x. set (R := rsum n (fun k => B2R (a (lo + k)%nat) * B2R (b (lo + k)%nat))) in *.
    set (Q := rsum n (fun k => Rabs (B2R (a (lo + k)%nat)) * Rabs (B2R (b (lo + k)%nat)))) in *.
    rewrite <- Rabs_mult. fold x.
    assert (HQ : 0 <= Q) by (apply (prods_nonneg prec emax n (fun k => a (lo + k)%nat) (fun k => b (lo + k)%nat))).
    replace (s - (R + x + S1)) with ((s - (R + S0)) + (S0 - (x + S1))) by ring.
    eapply Rle_trans; [apply Rabs_triang|].
    destruct (v_bounds prec) as (V0 & V1 & V2 & _). pose proof (u_pos prec) as U. pose proof (eta_pos prec emax) as ET.
    pose proof (Rabs_pos x) as Px. pose proof (Rabs_pos S1) as PS. pose proof (pow_ge1 prec n) as W1.
    assert (A3 : Rabs S0 <= Rabs x * (1 + u) + eta + Rabs S1 * (1 + u)).
    { replace S0 with ((S0 - (x + S1)) + x + S1) by ring.
      eapply Rle_trans; [apply Rabs_triang|]. eapply Rle_trans; [apply Rplus_le_compat_r, Rabs_triang|]. lra. }
    unfold gam in *. simpl pow. set (W := (1 + u) ^ n) in *.
    assert (HT2 : tiny prec emax n n + W * eta <= tiny prec emax (S n) (S n)).
    { unfold tiny. rewrite S_INR. simpl pow. fold W. pose proof (pos_INR n).
      assert (0 <= INR n * eta * W * u) by (apply Rmult_le_pos; [apply Rmult_le_pos; [apply Rmult_le_pos|]|]; lra).
      assert (0 <= eta * W * u) by (apply Rmult_le_pos; [apply Rmult_le_pos|]; lra).
      replace ((INR n + 1) * eta * ((1 + u) * W)) with (INR n * eta * W + INR n * eta * W * u + eta * W + eta * W * u) by ring. lra. }
    assert (A4 : (W - 1) * Rabs S0 <= (W - 1) * (Rabs x * (1 + u) + eta + Rabs S1 * (1 + u))) by (apply Rmult_le_compat_l; lra).
    assert (A5 : (W - 1) * Q <= ((1 + u) * W - 1) * Q) by (apply Rmult_le_compat_r; nra).
    nra.
Qed.
Lemma quotient_chain : forall n (P : nat -> fl) lo (a b : nat -> fl) (t : fl), chain n P lo a b ->
  is_finite (Bdiv mode_NE (P n) t) = true -> is_finite t = true ->
  is_finite (P O) = true /\ B2R t <> 0 /\
  let x := B2R (Bdiv mode_NE (P n) t) in
  Rabs (B2R (P O) - (rsum n (fun k => B2R (a (lo + k)%nat) * B2R (b (lo + k)%nat)) + B2R t * x))
  <= gam prec (n + 1) * (rsum n (fun k => Rabs (B2R (a (lo + k)%nat)) * Rabs (B2R (b (lo + k)%nat))) + Rabs (B2R t * x))
     + tiny prec emax n n + tiny prec emax 1 n * Rabs (B2R t).
Proof.
  intros n P lo a b t HC H Ft. destruct (Bdiv_fin _ _ _ _ _ _ H Ft) as (F1 & Nt & e & h & E1 & E2 & E3 & E4).
  destruct (chain_err n P lo a b HC F1) as (Fs & B). split; auto. split; auto. intros x.
  change (B2R (Bdiv mode_NE (P n) t)) with x in E4.
  set (S1 := B2R (P n)) in *.
  set (R := rsum n (fun k => B2R (a (lo + k)%nat) * B2R (b (lo + k)%nat))) in *.
  set (Q := rsum n (fun k => Rabs (B2R (a (lo + k)%nat)) * Rabs (B2R (b (lo + k)%nat)))) in *.
  assert (HQ : 0 <= Q) by (apply (prods_nonneg prec emax n (fun k => a (lo + k)%nat) (fun k => b (lo + k)%nat))).
  pose proof (u_pos prec) as U. pose proof (eta_pos prec emax) as ET. pose proof (pow_ge1 prec n) as W1.
  set (T := B2R t) in *. pose proof (Rabs_pos (T * x)) as PTx. pose proof (Rabs_pos T) as PT.
  assert (D : Rabs (S1 - T * x) <= u * Rabs (T * x) + eta * Rabs T).
  { destruct (Rmult_integral _ _ E3) as [Z|Z]; subst.
    - assert (S1 - T * x = - (T * h)) as ->. { rewrite E4. field. auto. }
      rewrite Rabs_Ropp, Rabs_mult. assert (Rabs T * Rabs h <= Rabs T * eta) by (apply Rmult_le_compat_l; lra). nra.
    - destruct (inv_err e E1) as (d' & D1 & D2).
      assert (S1 = T * x * (1 + d')) as ->. { rewrite E4. replace (T * (S1 / T * (1 + e) + 0) * (1 + d')) with (S1 * ((1 + e) * (1 + d'))) by (field; auto). rewrite D2. ring. }
      replace (T * x * (1 + d') - T * x) with (T * x * d') by ring. rewrite Rabs_mult.
      assert (Rabs (T * x) * Rabs d' <= Rabs (T * x) * u) by (apply Rmult_le_compat_l; lra). nra. }
  assert (D2 : Rabs S1 <= Rabs (T * x) + (u * Rabs (T * x) + eta * Rabs T)).
  { replace S1 with (T * x + (S1 - T * x)) by ring. eapply Rle_trans; [apply Rabs_triang|]. lra. }
  replace (B2R (P O) - (R + T * x)) with ((B2R (P O) - (R + S1)) + (S1 - T * x)) by ring.
  eapply Rle_trans; [apply Rabs_triang|]. unfold gam, tiny in *. rewrite pow_add. simpl (INR 1). simpl ((1 + u) ^ 1).
  set (W := (1 + u) ^ n) in *. set (Y := INR n * eta * W) in *.
  assert (A4 : (W - 1) * Rabs S1 <= (W - 1) * (Rabs (T * x) + (u * Rabs (T * x) + eta * Rabs T))) by (apply Rmult_le_compat_l; lra).
  assert (A5 : (W - 1) * Q <= (W * (1 + u) - 1) * Q) by (apply Rmult_le_compat_r; nra).
  nra.
Qed.

Notation RT t d a := (@tri_of real_ops t d (fun i j => B2R (a i j))).
Lemma chain_residual : forall t d n (a : nat -> nat -> fl) (b f : nat -> fl),
  (forall i, (i < n)%nat -> exists P, P O = b i /\ chain (sub_len t n i) P (sub_lo t i) (a i) f /\
     f i = match d with Explicit => Bdiv mode_NE (P (sub_len t n i)) (a i i) | ImplicitUnit => P (sub_len t n i) end) ->
  (d = Explicit -> forall i, (i < n)%nat -> is_finite (a i i) = true) -> all_finite n f ->
  forall i, (i < n)%nat ->
  is_finite (b i) = true /\ RT t d a i i <> 0 /\
  Rabs (rsum n (fun j => RT t d a i j * B2R (f j)) - B2R (b i))
  <= gam prec n * rsum n (fun j => Rabs (RT t d a i j) * Rabs (B2R (f j)))
     + tiny prec emax n n + tiny prec emax 1 n * Rabs (RT t d a i i).
Proof.
  intros t d n a b f Hf Ha Ff i Hi. destruct (Hf i Hi) as (P & P0 & PC & E). pose proof (Ff i Hi) as Fi.
  rewrite (row_split t d n a i (fun j => B2R (f j)) Rmult Hi) by (intros; ring).
  rewrite (row_split t d n a i (fun j => B2R (f j)) (fun x y => Rabs x * Rabs y) Hi) by (intros; rewrite Rabs_R0; ring).
  set (lo := sub_lo t i) in *. set (k := sub_len t n i) in *.
  assert (Hk : (k + 1 <= n)%nat) by (unfold k; destruct t; simpl; lia).
  pose proof (prods_nonneg prec emax k (fun l => a i (lo + l)%nat) (fun l => f (lo + l)%nat)) as PQ. cbv beta in PQ.
  fold lo k in E, PC.
  assert (HD : RT t d a i i = match d with Explicit => B2R (a i i) | ImplicitUnit => 1 end).
  { unfold tri_of. rewrite Nat.eqb_refl. destruct d; reflexivity. }
  rewrite HD. clear HD. destruct d.
  - rewrite E in Fi. destruct (quotient_chain k P lo (a i) f (a i i) PC Fi (Ha eq_refl i Hi)) as (Fb & Nz & B).
    rewrite <- E in B. rewrite P0 in *. cbv zeta in B. split; auto. split; auto. rewrite Rabs_minus_sym.
    eapply Rle_trans; [exact B|]. rewrite (Rabs_mult (B2R (a i i))).
    apply Rplus_le_compat; [apply Rplus_le_compat|].
    + apply Rmult_le_compat_r; [|apply gam_mono; auto].
      assert (0 <= Rabs (B2R (a i i)) * Rabs (B2R (f i))) by (apply Rmult_le_pos; apply Rabs_pos). lra.
    + apply tiny_mono; lia.
    + apply Rmult_le_compat_r; [apply Rabs_pos|]. apply tiny_mono; lia.
  - rewrite E in Fi. destruct (chain_err k P lo (a i) f PC Fi) as (Fb & B).
    rewrite <- E in B. rewrite P0 in *. split; auto. split; [lra|]. rewrite Rabs_R1, !Rmult_1_l, Rmult_1_r. rewrite Rabs_minus_sym.
    eapply Rle_trans; [exact B|]. rewrite Rplus_assoc. apply Rplus_le_compat.
    + apply Rmult_le_compat_r; [|apply gam_mono; lia]. pose proof (Rabs_pos (B2R (f i))). lra.
    + pose proof (tiny_mono k n k n ltac:(lia) ltac:(lia)). pose proof (tiny_nonneg prec emax 1 n). lra.
Qed.

Lemma chain_residual_r : forall t d n (a : nat -> nat -> fl) (b f : nat -> fl),
  (forall i, (i < n)%nat -> exists P, P O = b i /\ chain (sub_len (opp t) n i) P (sub_lo (opp t) i) f (fun k => a k i) /\
     f i = match d with Explicit => Bdiv mode_NE (P (sub_len (opp t) n i)) (a i i) | ImplicitUnit => P (sub_len (opp t) n i) end) ->
  (d = Explicit -> forall i, (i < n)%nat -> is_finite (a i i) = true) -> all_finite n f ->
  forall j, (j < n)%nat ->
  is_finite (b j) = true /\ RT t d a j j <> 0 /\
  Rabs (rsum n (fun k => B2R (f k) * RT t d a k j) - B2R (b j))
  <= gam prec n * rsum n (fun k => Rabs (B2R (f k)) * Rabs (RT t d a k j))
     + tiny prec emax n n + tiny prec emax 1 n * Rabs (RT t d a j j).
Proof.
  intros t d n a b f Hf Ha Ff i Hi. destruct (Hf i Hi) as (P & P0 & PC & E). pose proof (Ff i Hi) as Fi.
  set (at_ := fun i j => a j i).
  rewrite (rsum_ext n _ (fun k => RT (opp t) d at_ i k * B2R (f k))).
  2: { intros k Hk. rewrite tri_opp. apply Rmult_comm. }
  rewrite (rsum_ext n (fun k => Rabs (B2R (f k)) * Rabs _) (fun k => Rabs (RT (opp t) d at_ i k) * Rabs (B2R (f k)))).
  2: { intros k Hk. rewrite tri_opp. apply Rmult_comm. }
  rewrite (tri_opp t d _ i i). fold at_.
  rewrite (row_split (opp t) d n at_ i (fun j => B2R (f j)) Rmult Hi) by (intros; ring).
  rewrite (row_split (opp t) d n at_ i (fun j => B2R (f j)) (fun x y => Rabs x * Rabs y) Hi) by (intros; rewrite Rabs_R0; ring).
  set (lo := sub_lo (opp t) i) in *. set (k := sub_len (opp t) n i) in *. change (fun k => a k i) with (at_ i) in PC.
  assert (Hk : (k + 1 <= n)%nat) by (unfold k; destruct t; simpl; lia).
  pose proof (prods_nonneg prec emax k (fun l => at_ i (lo + l)%nat) (fun l => f (lo + l)%nat)) as PQ. cbv beta in PQ.
  match goal with |- context [@tri_of real_ops (opp t) d ?A i i] => assert (HD : @tri_of real_ops (opp t) d A i i = match d with Explicit => B2R (at_ i i) | ImplicitUnit => 1 end) end.
  { unfold tri_of. rewrite Nat.eqb_refl. destruct d; reflexivity. }
  rewrite HD. clear HD. destruct d.
  - rewrite E in Fi. destruct (quotient_chain k P lo f (at_ i) (at_ i i) PC Fi (Ha eq_refl i Hi)) as (Fb & Nz & B).
    cbv zeta in B. change (a i i) with (at_ i i) in E. rewrite <- E in B. rewrite P0 in *.
    rewrite (rsum_ext k _ (fun l => B2R (at_ i (lo + l)%nat) * B2R (f (lo + l)%nat))) in B by (intros; apply Rmult_comm).
    rewrite (rsum_ext k (fun l => Rabs _ * Rabs _) (fun l => Rabs (B2R (at_ i (lo + l)%nat)) * Rabs (B2R (f (lo + l)%nat)))) in B by (intros; apply Rmult_comm).
    change (RT (opp t) Explicit at_ i i) with (@tri_of real_ops (opp t) Explicit (fun i j => B2R (at_ i j)) i i).
    assert (HE : @tri_of real_ops (opp t) Explicit (fun i j => B2R (at_ i j)) i i = B2R (at_ i i)) by (unfold tri_of; rewrite Nat.eqb_refl; reflexivity).
    rewrite HE.
    split; auto. split; auto. rewrite Rabs_minus_sym.
    eapply Rle_trans; [exact B|]. rewrite (Rabs_mult (B2R (at_ i i))).
    apply Rplus_le_compat; [apply Rplus_le_compat|].
    + apply Rmult_le_compat_r; [|apply gam_mono; auto].
      assert (0 <= Rabs (B2R (at_ i i)) * Rabs (B2R (f i))) by (apply Rmult_le_pos; apply Rabs_pos). lra.
    + apply tiny_mono; lia.
    + apply Rmult_le_compat_r; [apply Rabs_pos|]. apply tiny_mono; lia.
  - rewrite E in Fi. destruct (chain_err k P lo f (at_ i) PC Fi) as (Fb & B).
    rewrite <- E in B. rewrite P0 in *.
    rewrite (rsum_ext k _ (fun l => B2R (at_ i (lo + l)%nat) * B2R (f (lo + l)%nat))) in B by (intros; apply Rmult_comm).
    rewrite (rsum_ext k (fun l => Rabs _ * Rabs _) (fun l => Rabs (B2R (at_ i (lo + l)%nat)) * Rabs (B2R (f (lo + l)%nat)))) in B by (intros; apply Rmult_comm).
    assert (HE : @tri_of real_ops (opp t) ImplicitUnit (fun i j => B2R (at_ i j)) i i = 1) by (unfold tri_of; rewrite Nat.eqb_refl; reflexivity).
    rewrite HE.
    split; auto. split; [lra|]. rewrite Rabs_R1, !Rmult_1_l, Rmult_1_r. rewrite Rabs_minus_sym.
    eapply Rle_trans; [exact B|]. rewrite Rplus_assoc. apply Rplus_le_compat.
    + apply Rmult_le_compat_r; [|apply gam_mono; lia]. pose proof (Rabs_pos (B2R (f i))). lra.
    + pose proof (tiny_mono k n k n ltac:(lia) ltac:(lia)). pose proof (tiny_nonneg prec emax 1 n). lra.
Qed.

(** * The solves over traced numbers *)
Section Traced.
Variable fuse : opcode -> hist -> hist -> bool * bool.
Notation O := (traced_ops prec emax Hp He fuse).
Notation val x := (value (x : traced prec emax)).
Lemma tdiffs_S : forall (s : O) lo n f, @diffs O s lo (S n) f = t_sub prec emax Hp He fuse (@diffs O s lo n f) (f (lo + n)%nat).
Proof. intros; unfold diffs. rewrite seq_S, fold_left_app; reflexivity. Qed.
Lemma tdiffs_plain : forall (s : O) lo n f, product (s : traced prec emax) = None -> product (@diffs O s lo n f : traced prec emax) = None.
Proof. intros s lo n f H. destruct n; [exact H|]. rewrite tdiffs_S. reflexivity. Qed.
Lemma tdiffs_chain : forall n (s : O) lo (a b : nat -> O), product (s : traced prec emax) = None ->
  chain n (fun k => val (@diffs O s lo k (fun j => @mul O (a j) (b j)))) lo (fun k => val (a k)) (fun k => val (b k)).
Proof.
  intros n s lo a b H k Hk. rewrite tdiffs_S. unfold t_sub. cbn [value]. rewrite (tdiffs_plain s lo k _ H).
  set (D := diffs s lo k _). simpl. destruct (fuse _ _ _) as [? []]; [right|left]; reflexivity.
Qed.
Lemma trsv_traced : forall ty (m : mem O) A t d B X (a : nat -> nat -> O) (b : nat -> O),
  fits ty (ext0 A) -> (ext0 A = 0 -> t = Upper -> ty <> U32)%nat ->
  ext0 A = ext1 A -> vext B = ext0 A -> vext X = ext0 A ->
  mat_holds_on m A (stored t d) a -> vec_holds m B b -> vwritable X -> allocated m (vcells X) ->
  disjoint (mcells_on A (stored t d)) (vcells X) -> disjoint_or_aligned_v B X ->
  (forall i, (i < ext0 A)%nat -> product (b i : traced prec emax) = None) ->
  (d = Explicit -> forall i, (i < ext0 A)%nat -> is_finite (val (a i i)) = true) ->
  succeeds (triangular_matrix_vector_solve ty A t d B X) m (fun _ m' =>
    (exists f, vec_holds m' X f /\ (all_finite (ext0 A) (fun i => val (f i)) ->
       small_residual t d (ext0 A) (fun i j => val (a i j)) (fun i => val (b i)) (fun i => val (f i))))
    /\ changes_only m m' (vcells X)).
Proof.
  intros ty m A t d B X a b H1 H2 H3 H4 H5 H6 H7 H8 H9 H10 H11 H12 H13.
  eapply wp_conseq; [apply (@trsv_subst O) with (a := a) (b := b); eauto|]. intros [] m' [(f & K1 & K2) K3]. split; auto.
  exists f; split; auto. intros Hf.
  refine (chain_residual t d (ext0 A) (fun i j => val (a i j)) (fun i => val (b i)) (fun i => val (f i)) _ H13 Hf).
  intros i Hi. exists (fun k => val (@diffs O (b i) (sub_lo t i) k (fun j => @mul O (a i j) (f j)))).
  split; [reflexivity|]. split; [apply tdiffs_chain; auto|]. rewrite (K2 i Hi) at 1. unfold subst_value. destruct d; reflexivity.
Qed.
Lemma trsm_left_traced : forall ty (m : mem O) A t d B X (a b : nat -> nat -> O),
  fits ty (ext0 A) -> (ext0 A = 0 -> t = Upper -> ty <> U32)%nat ->
  ext0 A = ext1 A -> ext0 B = ext0 A -> ext0 X = ext0 A -> ext1 X = ext1 B ->
  mat_holds_on m A (stored t d) a -> mat_holds m B b -> mwritable X -> allocated m (mcells X) ->
  disjoint (mcells_on A (stored t d)) (mcells X) -> disjoint_or_aligned_m B X ->
  (forall i j, (i < ext0 A)%nat -> (j < ext1 B)%nat -> product (b i j : traced prec emax) = None) ->
  (d = Explicit -> forall i, (i < ext0 A)%nat -> is_finite (val (a i i)) = true) ->
  succeeds (triangular_matrix_matrix_left_solve ty A t d B X) m (fun _ m' =>
    (exists x, mat_holds m' X x /\ forall j, (j < ext1 X)%nat -> all_finite (ext0 A) (fun i => val (x i j)) ->
       small_residual t d (ext0 A) (fun i j => val (a i j)) (fun i => val (b i j)) (fun i => val (x i j)))
    /\ changes_only m m' (mcells X)).
Proof.
  intros ty m A t d B X a b H1 H2 H3 H4 H5 H5' H6 H7 H8 H9 H10 H11 H12 H13.
  eapply wp_conseq; [apply (@trsm_left_subst O) with (a := a) (b := b); eauto|]. intros [] m' [(x & K1 & K2) K3]. split; auto.
  exists x; split; auto. intros j Hj Hf.
  refine (chain_residual t d (ext0 A) (fun i j => val (a i j)) (fun i => val (b i j)) (fun i => val (x i j)) _ H13 Hf).
  intros i Hi. exists (fun k => val (@diffs O (b i j) (sub_lo t i) k (fun l => @mul O (a i l) (x l j)))).
  split; [reflexivity|]. split; [apply (tdiffs_chain _ (b i j) _ (a i) (fun l => x l j)); apply H12; lia|].
  rewrite (K2 i j) at 1 by lia. unfold subst_value. destruct d; reflexivity.
Qed.
Lemma trsm_right_traced : forall ty (m : mem O) A t d B X (a b : nat -> nat -> O),
  (t = Lower -> fits (make_signed ty) (ext0 A)) ->
  ext0 A = ext1 A -> ext1 B = ext0 A -> ext1 X = ext0 A -> ext0 X = ext0 B ->
  mat_holds_on m A (stored t d) a -> mat_holds m B b -> mwritable X -> allocated m (mcells X) ->
  disjoint (mcells_on A (stored t d)) (mcells X) -> disjoint_or_aligned_m B X ->
  (forall i j, (i < ext0 B)%nat -> (j < ext0 A)%nat -> product (b i j : traced prec emax) = None) ->
  (d = Explicit -> forall i, (i < ext0 A)%nat -> is_finite (val (a i i)) = true) ->
  succeeds (triangular_matrix_matrix_right_solve ty A t d B X) m (fun _ m' =>
    (exists x, mat_holds m' X x /\ forall i, (i < ext0 X)%nat -> all_finite (ext0 A) (fun j => val (x i j)) ->
       small_residual_r t d (ext0 A) (fun i j => val (a i j)) (fun j => val (b i j)) (fun j => val (x i j)))
    /\ changes_only m m' (mcells X)).
Proof.
  intros ty m A t d B X a b H1 H3 H4 H5 H5' H6 H7 H8 H9 H10 H11 H12 H13.
  eapply wp_conseq; [apply (@trsm_right_subst O) with (a := a) (b := b); eauto|]. intros [] m' [(x & K1 & K2) K3]. split; auto.
  exists x; split; auto. intros i Hi Hf.
  refine (chain_residual_r t d (ext0 A) (fun i j => val (a i j)) (fun j => val (b i j)) (fun j => val (x i j)) _ H13 Hf).
  intros j Hj. exists (fun k => val (@diffs O (b i j) (sub_lo (opp t) j) k (fun l => @mul O (x i l) (a l j)))).
  split; [reflexivity|]. split; [apply (tdiffs_chain _ (b i j) _ (fun l => x i l) (fun l => a l j)); apply H12; lia|].
  rewrite (K2 i j) at 1 by lia. unfold subst_value_r. fold (opp t). destruct d; reflexivity.
Qed.
End Traced.
End Ieee.

(** The sets of possible values of C91 contain every such run. *)
Lemma traced_respects : forall prec emax (Hp : Prec_gt_0 prec) (He : Prec_lt_emax prec emax) fuse,
  respects (O1 := traced_ops prec emax Hp He fuse) (O2 := fma_ops prec emax Hp He) may_be_traced /\
  respects_op (O1 := traced_ops prec emax Hp He fuse) (O2 := fma_ops prec emax Hp He) may_be_traced
    (@div (traced_ops prec emax Hp He fuse)) (@div (fma_ops prec emax Hp He)).
Proof.
  intros. split; [constructor|]; unfold may_be_traced, respects_op.
  - split; [reflexivity|discriminate].
  - intros [x1 p1 h1] a [y1 q1 h2] b [H1 H2] [K1 K2]. simpl in *. split; [|discriminate].
    destruct p1 as [[u1 u2]|], q1 as [[w1 w2]|]; try destruct (fuse _ _) as [[] []]; eauto 12.
  - intros [x1 p1 h1] a [y1 q1 h2] b [H1 H2] [K1 K2]. simpl in *. split; [|discriminate].
    destruct p1 as [[u1 u2]|], q1 as [[w1 w2]|]; try destruct (fuse _ _) as [[] []]; eauto 12.
  - intros [x1 p1 h1] a [y1 q1 h2] b [H1 H2] [K1 K2]. simpl in *. split; [eauto|]. intros y z E. inversion E; subst; auto.
  - auto.
  - auto.
  - intros [x1 p1 h1] a [y1 q1 h2] b [H1 H2] [K1 K2]. simpl in *. split; [eauto|discriminate].
Qed.

(** Parallel reductions in IEEE arithmetic: every execution is within the error bound. *)
From Coq Require Import List Arith ZArith NArith Reals Lia Lra Bool Psatz Permutation.
From Flocq Require Import Core.Core IEEE754.BinarySingleNaN.
From Verif Require Import Mem Scalar View Spec SpecR SpecF SpecK Norm Ieee Wp PfNorm PfIeee PfIeeeNorm PfIeeeNan PfIeeeSum
  KK PfKK PfTrsv Red KKNorm PfRed.
Import ListNotations.
Local Open Scope R_scope.

Section Tree.
Context (prec emax : Z) (Hp : Prec_gt_0 prec) (He : Prec_lt_emax prec emax).
Notation fl := (binary_float prec emax).
Notation F := (ieee_r prec emax Hp He).
Notation u := (unit_roundoff prec).
Notation eta := (half_tiny prec emax).
Notation maxf := (max_finite prec emax).
Notation zf := (B754_zero false : fl).

Notation lsum f l := (ofold Rplus 0 f l).
Lemma lsum_app : forall f l1 l2, lsum f (l1 ++ l2) = lsum f l1 + lsum f l2.
Proof. intros. apply ofold_app; intros; ring. Qed.
Lemma lsum_perm : forall f n l, Permutation l (seq 0 n) -> lsum f l = rsum n f.
Proof. intros f n l H. rewrite <- ofold_rsum. apply ofold_perm; auto; intros; ring. Qed.
Lemma lsum_abs : forall f l, Rabs (lsum f l) <= lsum (fun i => Rabs (f i)) l.
Proof. intros f l. induction l; simpl; [rewrite Rabs_R0; lra|]. eapply Rle_trans; [apply Rabs_triang|]. lra. Qed.
Lemma lsum_nonneg : forall f l, 0 <= lsum (fun i => Rabs (f i)) l.
Proof. intros f l. induction l; simpl; [lra|]. pose proof (Rabs_pos (f a)). lra. Qed.

(** Accumulator [x] over the indices [l]. *)
Definition tree_ok (t : nat -> fl) (l : list nat) (x : fl) : Prop :=
  (l = [] -> is_finite x = true /\ B2R x = 0) /\
  (is_finite x = true -> (forall i, In i l -> is_finite (t i) = true) /\
     Rabs (B2R x - lsum (fun i => B2R (t i)) l) <= ((1 + u) ^ Nat.pred (length l) - 1) * lsum (fun i => Rabs (B2R (t i))) l) /\
  ((forall i, In i l -> is_finite (t i) = true) ->
     (1 + u) ^ Nat.pred (length l) * lsum (fun i => Rabs (B2R (t i))) l <= maxf -> is_finite x = true).

Lemma zero_plus : forall x y : fl, B2R x = 0 -> is_finite x = true -> is_finite (Bplus mode_NE x y) = is_finite y /\
  (is_finite y = true -> B2R (Bplus mode_NE x y) = B2R y).
Proof.
  intros x y Ex Fx. destruct x as [sx|[]| |sx mx ex Bx]; simpl in *; try discriminate.
  - destruct y as [sy|[]| |sy my ey By]; simpl; auto. destruct (Bool.eqb sx sy); auto.
  - exfalso. apply Rmult_integral in Ex. destruct Ex as [Ex|Ex].
    + apply (eq_IZR _ 0) in Ex. destruct sx; discriminate.
    + pose proof (bpow_gt_0 radix2 ex). simpl in *. lra.
Qed.
Lemma plus_zero : forall x y : fl, B2R y = 0 -> is_finite y = true -> is_finite (Bplus mode_NE x y) = is_finite x /\
  (is_finite x = true -> B2R (Bplus mode_NE x y) = B2R x).
Proof.
  intros x y Ey Fy. destruct y as [sy|[]| |sy my ey By]; simpl in *; try discriminate.
  - destruct x as [sx|[]| |sx mx ex Bx]; simpl; auto. destruct (Bool.eqb sx sy); auto.
  - exfalso. apply Rmult_integral in Ey. destruct Ey as [Ey|Ey].
    + apply (eq_IZR _ 0) in Ey. destruct sy; discriminate.
    + pose proof (bpow_gt_0 radix2 ey). simpl in *. lra.
Qed.
Lemma tree_nil : forall t, tree_ok t [] zf.
Proof.
  intros t. split; [auto|split].
  - intros _. split; [intros i []|]. simpl. rewrite Rminus_0_r, Rabs_R0. lra.
  - auto.
Qed.
Lemma tree_one : forall t i, tree_ok t [i] (t i).
Proof.
  intros t i. split; [discriminate|split].
  - intros H. split; [intros j [<-|[]]; auto|]. simpl. rewrite Rplus_0_r. rewrite Rminus_diag_eq by auto. rewrite Rabs_R0. lra.
  - intros H _. apply H. left; auto.
Qed.
Lemma tree_same : forall t l (x y : fl), is_finite y = is_finite x -> (is_finite x = true -> B2R y = B2R x) -> tree_ok t l x -> tree_ok t l y.
Proof.
  intros t l x y E1 E2 (A & B & C). split; [|split].
  - intros H. destruct (A H) as [A1 A2]. rewrite E1, E2; auto.
  - intros H. rewrite E1 in H. rewrite E2; auto.
  - rewrite E1; auto.
Qed.
Lemma tree_plus : forall t l1 l2 (x y : fl), tree_ok t l1 x -> tree_ok t l2 y -> tree_ok t (l1 ++ l2) (Bplus mode_NE x y).
Proof.
  intros t l1 l2 x y Hx Hy.
  destruct l1 as [|a1 l1'] eqn:El1.
  { destruct Hx as (Hx & _). destruct (Hx eq_refl) as [X1 X2]. destruct (zero_plus x y X2 X1) as [Z1 Z2].
    simpl. eapply tree_same; [exact Z1|exact Z2|exact Hy]. }
  destruct l2 as [|a2 l2'] eqn:El2.
  { destruct Hy as (Hy & _). destruct (Hy eq_refl) as [X1 X2]. destruct (plus_zero x y X2 X1) as [Z1 Z2].
    rewrite app_nil_r. eapply tree_same; [exact Z1|exact Z2|exact Hx]. }
  rewrite <- El1, <- El2 in *. destruct Hx as (_ & Hx1 & Hx2), Hy as (_ & Hy1 & Hy2).
  set (k1 := Nat.pred (length l1)) in *. set (k2 := Nat.pred (length l2)) in *.
  assert (HL : (max k1 k2 < Nat.pred (length (l1 ++ l2)))%nat).
  { rewrite app_length. unfold k1, k2. rewrite El1, El2. simpl. lia. }
  set (k := Nat.pred (length (l1 ++ l2))) in *. set (kk := max k1 k2) in *.
  pose proof (u_pos prec) as U. pose proof (pow_ge1 prec kk) as W1.
  assert (HW : (1 + u) ^ kk * (1 + u) <= (1 + u) ^ k).
  { replace ((1 + u) ^ kk * (1 + u)) with ((1 + u) ^ S kk) by (simpl; ring). apply (pow_mono prec); lia. }
  assert (H1 : (1 + u) ^ k1 <= (1 + u) ^ kk) by (apply (pow_mono prec); lia).
  assert (H2 : (1 + u) ^ k2 <= (1 + u) ^ kk) by (apply (pow_mono prec); lia).
  pose proof (lsum_nonneg (fun i => B2R (t i)) l1) as P1. pose proof (lsum_nonneg (fun i => B2R (t i)) l2) as P2.
  pose proof (lsum_abs (fun i => B2R (t i)) l1) as A1. pose proof (lsum_abs (fun i => B2R (t i)) l2) as A2.
  set (S1 := lsum (fun i => B2R (t i)) l1) in *. set (S2 := lsum (fun i => B2R (t i)) l2) in *.
  set (M1 := lsum (fun i => Rabs (B2R (t i))) l1) in *. set (M2 := lsum (fun i => Rabs (B2R (t i))) l2) in *.
  split; [intros E; rewrite El1 in E; discriminate|split].
  - intros Fr. destruct (Bplus_fin prec emax Hp He x y Fr) as (Fx & Fy & _ & e & E1 & E2).
    destruct (Hx1 Fx) as [X1 X2], (Hy1 Fy) as [Y1 Y2]. split.
    + intros i Hi. apply in_app_or in Hi. destruct Hi; auto.
    + rewrite !lsum_app. fold S1 S2 M1 M2. rewrite E2.
      eapply Rle_trans; [apply add_err with (W := (1 + u) ^ kk) (A1 := M1) (A2 := M2); auto|].
      * eapply Rle_trans; [exact X2|]. apply Rmult_le_compat_r; lra.
      * eapply Rle_trans; [exact Y2|]. apply Rmult_le_compat_r; lra.
      * apply (v_le_u prec); auto.
      * fold k. apply Rmult_le_compat_r; lra.
  - intros Ff HM. fold k in HM. rewrite lsum_app in HM. fold M1 M2 in HM.
    assert (Q : (1 + u) ^ kk * (M1 + M2) <= maxf).
    { eapply Rle_trans; [|exact HM]. apply Rmult_le_compat_r; [lra|]. nra. }
    assert (Fx : is_finite x = true).
    { apply Hx2; [intros; apply Ff, in_or_app; auto|]. fold k1 M1. 
      apply Rle_trans with ((1 + u) ^ kk * M1); [apply Rmult_le_compat_r; lra|nra]. }
    assert (Fy : is_finite y = true).
    { apply Hy2; [intros; apply Ff, in_or_app; auto|]. fold k2 M2.
      apply Rle_trans with ((1 + u) ^ kk * M2); [apply Rmult_le_compat_r; lra|nra]. }
    apply (Bplus_no prec emax Hp He); auto.
    destruct (Hx1 Fx) as [_ X2], (Hy1 Fy) as [_ Y2]. fold k1 S1 M1 in X2. fold k2 S2 M2 in Y2.
    assert (Rabs (B2R x) <= (1 + u) ^ kk * M1).
    { replace (B2R x) with (S1 + (B2R x - S1)) by ring. eapply Rle_trans; [apply Rabs_triang|].
      assert (((1 + u) ^ k1 - 1) * M1 <= ((1 + u) ^ kk - 1) * M1) by (apply Rmult_le_compat_r; lra). lra. }
    assert (Rabs (B2R y) <= (1 + u) ^ kk * M2).
    { replace (B2R y) with (S2 + (B2R y - S2)) by ring. eapply Rle_trans; [apply Rabs_triang|].
      assert (((1 + u) ^ k2 - 1) * M2 <= ((1 + u) ^ kk - 1) * M2) by (apply Rmult_le_compat_r; lra). lra. }
    eapply Rle_trans; [apply Rabs_triang|]. lra.
Qed.

Lemma partial_tree : forall T (m : mem T) n (body : nat -> fl -> prog T fl) (t : nat -> fl),
  (forall i x, (i < n)%nat -> run (body i x) m = Ok (Bplus mode_NE x (t i)) m) ->
  forall l x, partial m body (Bplus mode_NE) zf l x -> (forall k, In k l -> (k < n)%nat) -> tree_ok t l x.
Proof.
  intros T m n body t Hb l x H. induction H as [|l x i y m' H IH Hy|l1 l2 x y H1 IH1 H2 IH2]; intros Hl.
  - apply tree_nil.
  - rewrite Hb in Hy by (apply Hl, in_or_app; simpl; auto). injection Hy as <- <-.
    apply tree_plus; [|apply tree_one]. apply IH. intros; apply Hl, in_or_app; auto.
  - apply tree_plus; [apply IH1|apply IH2]; intros; apply Hl, in_or_app; auto.
Qed.
(** Accumulated sum plus init. *)
Definition red_sum_ok (n : nat) (t : nat -> fl) (x : fl) : Prop :=
  (n = 0%nat -> is_finite x = true /\ B2R x = 0) /\
  (is_finite x = true -> all_finite n t /\
     Rabs (B2R x - rsum n (fun i => B2R (t i))) <= ((1 + u) ^ Nat.pred n - 1) * rsum n (fun i => Rabs (B2R (t i)))) /\
  (all_finite n t -> (1 + u) ^ Nat.pred n * rsum n (fun i => Rabs (B2R (t i))) <= maxf -> is_finite x = true).
Lemma reduce_tree : forall T (m : mem T) n (body : nat -> fl -> prog T fl) (t : nat -> fl) (Q : fl -> Prop),
  (forall i x, (i < n)%nat -> run (body i x) m = Ok (Bplus mode_NE x (t i)) m) ->
  (forall x, red_sum_ok n t x -> Q x) -> reduce_ok n body (Bplus mode_NE) zf m Q.
Proof.
  intros T m n body t Q Hb HQ. split.
  - intros l x i _ Hr _. eexists. apply Hb, Hr; simpl; auto.
  - intros l x Hl Hx. apply HQ.
    assert (I : forall k, In k l <-> (k < n)%nat).
    { intros k. split; intros H.
      - apply (Permutation_in _ Hl) in H. apply in_seq in H. lia.
      - apply (Permutation_in _ (Permutation_sym Hl)), in_seq. lia. }
    destruct (partial_tree T m n body t Hb l x Hx ltac:(intros; apply I; auto)) as (A & B & C).
    assert (EL : length l = n) by (rewrite (Permutation_length Hl), seq_length; auto).
    rewrite !(lsum_perm _ n l Hl), EL in *. split; [|split].
    + intros E. apply A. rewrite E in EL. apply length_zero_iff_nil. lia.
    + intros Fx. destruct (B Fx) as [B1 B2]. split; auto. intros i Hi. apply B1, I; auto.
    + intros Hf. apply C. intros i Hi. apply Hf, I; auto.
Qed.
Lemma red_sum_init : forall n t (x init : fl), red_sum_ok n t x -> sum_accurate n n init t (Bplus mode_NE x init).
Proof.
  intros n t x init (H0 & H1 & H2). pose proof (u_pos prec) as U.
  destruct n as [|n].
  { destruct (H0 eq_refl) as [F0 E0]. destruct (zero_plus x init E0 F0) as [Z1 Z2]. split.
    - intros Fr. rewrite Z1 in Fr. split; auto. split; [intros i Hi; lia|]. rewrite Z2 by auto. simpl. unfold gam. simpl.
      replace (_ - (_ + 0)) with 0 by ring. rewrite Rabs_R0. lra.
    - intros Fi _ _. rewrite Z1; auto. }
  simpl Nat.pred in *. set (T := rsum (S n) (fun i => B2R (t i))) in *. set (A := rsum (S n) (fun i => Rabs (B2R (t i)))) in *.
  assert (TA : Rabs T <= A) by apply (rsum_abs_le (S n)).
  pose proof (pow_ge1 prec n) as W1. pose proof (Rabs_pos (B2R init)) as PI. pose proof (Rabs_pos T) as PT.
  split; cbv zeta; unfold gam; fold T A.
  - intros Fr. destruct (Bplus_fin prec emax Hp He x init Fr) as (Fx & Fi & _ & e & E1 & E2).
    destruct (H1 Fx) as [K1 K2]. split; auto. split; auto. rewrite E2.
    rewrite (Rplus_comm (B2R init)), (Rplus_comm (Rabs (B2R init))). replace ((1 + u) ^ S n) with ((1 + u) ^ n * (1 + u)) by (simpl; ring).
    apply add_err; auto; try lra; [|apply (v_le_u prec); auto].
    rewrite Rminus_diag_eq by auto. rewrite Rabs_R0. apply Rmult_le_pos; lra.
  - intros Fi Ff HM. replace ((1 + u) ^ S n) with ((1 + u) ^ n * (1 + u)) in HM by (simpl; ring).
    set (W := (1 + u) ^ n) in *.
    assert (Q : W * (Rabs (B2R init) + A) <= maxf).
    { eapply Rle_trans; [|exact HM]. apply Rmult_le_compat_r; [lra|]. nra. }
    assert (Fx : is_finite x = true) by (apply H2; auto; nra).
    apply (Bplus_no prec emax Hp He); auto. destruct (H1 Fx) as [_ K2].
    assert (Rabs (B2R x) <= W * A).
    { replace (B2R x) with (T + (B2R x - T)) by ring. eapply Rle_trans; [apply Rabs_triang|]. lra. }
    eapply Rle_trans; [apply Rabs_triang|]. nra.
Qed.

(** Products as terms *)
Lemma terms_prod : forall n (a b : nat -> fl) (s r : fl),
  sum_accurate n n s (fun i => Bmult mode_NE (a i) (b i)) r -> accurate (n + 1) n s a b r.
Proof.
  intros n a b s r H. remember (fun i => Bmult mode_NE (a i) (b i)) as t eqn:Et. destruct H as [H1 H2]. pose proof (u_pos prec) as U. pose proof (eta_pos prec emax) as ET. pose proof (pow_ge1 prec n) as W1.
  assert (Etk : forall k, t k = Bmult mode_NE (a k) (b k)) by (intros; rewrite Et; auto). clear Et.
  set (P := rsum n (fun k => Rabs (B2R (a k)) * Rabs (B2R (b k)))).
  assert (HP : 0 <= P) by apply prods_nonneg.
  assert (HPR : rsum n (fun k => Rabs (B2R (a k) * B2R (b k))) = P) by (apply rsum_ext; intros; apply Rabs_mult).
  assert (N0 := pos_INR n). pose proof (Rabs_pos (B2R s)) as PS.
  assert (HT : all_finite n t -> Rabs (rsum n (fun k => B2R (t k)) - rsum n (fun k => B2R (a k) * B2R (b k))) <= u * P + INR n * eta /\
     rsum n (fun k => Rabs (B2R (t k))) <= (1 + u) * P + INR n * eta).
  { intros Ft. unfold P. clear H1 H2 P HP HPR W1 N0. revert Ft. induction n as [|n IH]; intros Ft.
    - simpl. rewrite Rminus_0_r, Rabs_R0. lra.
    - destruct (IH ltac:(intros i Hi; apply Ft; lia)) as [I1 I2]. specialize (Ft n ltac:(lia)). rewrite Etk in Ft.
      destruct (Bmult_fin prec emax Hp He (a n) (b n) Ft) as (_ & _ & e & h & E1 & E2 & _ & E3).
      cbn [rsum]. rewrite S_INR. apply (v_le_u prec) in E1.
      assert (Rabs (B2R (t n) - B2R (a n) * B2R (b n)) <= u * (Rabs (B2R (a n)) * Rabs (B2R (b n))) + eta).
      { rewrite Etk, E3. replace (_ - _) with (B2R (a n) * B2R (b n) * e + h) by ring.
        eapply Rle_trans; [apply Rabs_triang|]. apply Rplus_le_compat; auto. rewrite !Rabs_mult.
        rewrite Rmult_comm. apply Rmult_le_compat_r; auto. apply Rmult_le_pos; apply Rabs_pos. }
      split.
      + replace (_ + _ - (_ + _)) with ((rsum n (fun k => B2R (t k)) - rsum n (fun k => B2R (a k) * B2R (b k))) + (B2R (t n) - B2R (a n) * B2R (b n))) by ring.
        eapply Rle_trans; [apply Rabs_triang|]. lra.
      + assert (Rabs (B2R (t n)) <= Rabs (B2R (a n)) * Rabs (B2R (b n)) + Rabs (B2R (t n) - B2R (a n) * B2R (b n))).
        { rewrite <- Rabs_mult. replace (B2R (t n)) with (B2R (a n) * B2R (b n) + (B2R (t n) - B2R (a n) * B2R (b n))) at 1 by ring. apply Rabs_triang. }
        lra. }
  split; cbv zeta; fold P.
  - intros Fr. destruct (H1 Fr) as (K1 & K2 & K3). destruct (HT K2) as [T1 T2]. split; auto.
    assert (all_finite n a /\ all_finite n b) as [Fa Fb].
    { split; intros i Hi; specialize (K2 i Hi); rewrite Etk in K2; destruct (Bmult_fin prec emax Hp He (a i) (b i) K2) as (X & Y & _); auto. }
    split; auto. split; auto.
    unfold gam, tiny in *. rewrite pow_add, pow_1. set (W := (1 + u) ^ n) in *.
    replace (B2R r - (B2R s + rsum n (fun k => B2R (a k) * B2R (b k)))) with
      ((B2R r - (B2R s + rsum n (fun k => B2R (t k)))) + (rsum n (fun k => B2R (t k)) - rsum n (fun k => B2R (a k) * B2R (b k)))) by ring.
    eapply Rle_trans; [apply Rabs_triang|].
    assert ((W - 1) * (Rabs (B2R s) + rsum n (fun k => Rabs (B2R (t k)))) <= (W - 1) * (Rabs (B2R s) + ((1 + u) * P + INR n * eta))).
    { apply Rmult_le_compat_l; lra. }
    assert ((W - 1) * Rabs (B2R s) <= (W * (1 + u) - 1) * Rabs (B2R s)) by (apply Rmult_le_compat_r; nra).
    lra.
  - intros Fs Fa Fb HM. unfold tiny in HM.
    assert (HWn : (1 + u) ^ (n + 1) = (1 + u) ^ n * (1 + u)) by (rewrite pow_add, pow_1; auto).
    rewrite HWn in HM. set (W := (1 + u) ^ n) in *.
    assert (0 <= W * (1 + u) * Rabs (B2R s)) by (apply Rmult_le_pos; nra).
    assert (PM : P <= maxf). { assert (1 * P <= W * (1 + u) * P) by (apply Rmult_le_compat_r; nra). assert (0 <= INR n * eta * W) by (apply Rmult_le_pos; [apply Rmult_le_pos|]; lra). nra. }
    assert (Ft : all_finite n t).
    { intros i Hi. rewrite Etk. apply (Bmult_no prec emax Hp He); auto. rewrite Rabs_mult. eapply Rle_trans; [|exact PM].
      unfold P. clear - Hi. induction n as [|n IH]; [lia|]. simpl.
      assert (0 <= Rabs (B2R (a n)) * Rabs (B2R (b n))) by (apply Rmult_le_pos; apply Rabs_pos).
      pose proof (prods_nonneg prec emax n a b). destruct (Nat.eq_dec i n) as [->|]; [lra|]. specialize (IH ltac:(lia)). lra. }
    apply H2; auto. destruct (HT Ft) as [_ T2]. cbv zeta. fold W.
    assert (W * (Rabs (B2R s) + rsum n (fun k => Rabs (B2R (t k)))) <= W * (Rabs (B2R s) + ((1 + u) * P + INR n * eta))) by (apply Rmult_le_compat_l; lra).
    assert (W * Rabs (B2R s) <= W * (1 + u) * Rabs (B2R s)) by (apply Rmult_le_compat_r; nra).
    lra.
Qed.

Context {O : ops} (M : mags O F).
Lemma kk_abs_sum_float : forall (m : mem O) x f (init : fl), plain_v x -> vec_holds m x f ->
  red_returns (kk_vector_abs_sum M x init) m (sum_accurate (vext x) (vext x) init (fun i => eabs M (f i) : fl)).
Proof.
  intros m x f init Px Hx. apply view_v_holds in Hx; auto. unfold kk_vector_abs_sum. cbn [red_returns].
  apply (reduce_tree O m (vext x)) with (t := fun i => eabs M (f i)).
  - intros i s Hi. rewrite run_bind. erewrite run_vget by (eauto; simpl; lia). reflexivity.
  - intros s Hs. apply red_sum_init; auto.
Qed.
(** Square root: relative error at most u. *)
Lemma kk_norm2_float : forall (m : mem O) x f (init : fl), plain_v x -> vec_holds m x f ->
  red_returns (kk_vector_norm2 M x init) m (fun r : fl => exists v : fl, r = Bsqrt mode_NE v /\
    accurate (vext x + 1) (vext x) init (fun i => eabs M (f i) : fl) (fun i => eabs M (f i) : fl) v).
Proof.
  intros m x f init Px Hx. apply view_v_holds in Hx; auto. unfold kk_vector_norm2. cbn [red_returns].
  apply (reduce_tree O m (vext x)) with (t := fun i => Bmult mode_NE (eabs M (f i) : fl) (eabs M (f i) : fl)).
  - intros i s Hi. rewrite run_bind. erewrite run_vget by (eauto; simpl; lia). reflexivity.
  - intros s Hs. eexists. split; [reflexivity|]. apply terms_prod, red_sum_init; auto.
Qed.
End Tree.

Lemma kk_dot_float : forall prec emax (Hp : Prec_gt_0 prec) (He : Prec_lt_emax prec emax) (m : mem (ieee_ops prec emax Hp He)) x y f g init,
  plain_v x -> plain_v y -> vext x = vext y -> vec_holds m x f -> vec_holds m y g ->
  red_returns (kk_dot x y init) m (accurate (vext x + 1) (vext x) init f g).
Proof.
  intros prec emax Hp He m x y f g init Px Py E Hx Hy. apply view_v_holds in Hx; auto. apply view_v_holds in Hy; auto.
  unfold kk_dot. rewrite E, Nat.eqb_refl. cbn [red_returns]. rewrite <- E.
  apply (reduce_tree prec emax Hp He _ m (vext x)) with (t := fun i => Bmult mode_NE (f i : binary_float prec emax) (g i : binary_float prec emax)).
  - intros i s Hi. rewrite !run_bind. erewrite run_vget by (eauto; simpl; lia). cbn beta iota.
    rewrite run_bind. erewrite run_vget by (eauto; simpl; lia). reflexivity.
  - intros s Hs. apply (terms_prod prec emax Hp He), red_sum_init; auto.
Qed.

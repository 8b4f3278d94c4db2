(** Floating-point error bounds of the in-place triangular products. *)
From Coq Require Import List Arith ZArith Reals Lia Lra Psatz Bool.
From Flocq Require Import Core.Core IEEE754.BinarySingleNaN.
From Verif Require Import Mem Scalar View Spec SpecR SpecF SpecF2 SpecInp Idx Wp Loops Sums Norm Ieee Blas1 Blas2 Blas3
  PfBlas1 PfBlas2 PfTrmv PfRank PfBlas3 PfInplace PfIeee PfFloat PfApprox PfFloat2.
Import ListNotations.

Section Tri.
Context (prec emax : Z) (Hp : Prec_gt_0 prec) (He : Prec_lt_emax prec emax).
Notation F := (ieee_ops prec emax Hp He).
Notation fl := (binary_float prec emax).
Notation eta := (half_tiny prec emax).
Local Open Scope R_scope.

Definition lsum (l : list nat) (g : nat -> R) : R := fold_right (fun k r => g k + r) 0 l.
Lemma lsum_app : forall l1 l2 g, lsum (l1 ++ l2) g = lsum l1 g + lsum l2 g.
Proof. induction l1 as [|k l1 IH]; intros; simpl; [lra|]. rewrite IH. lra. Qed.
Lemma lsum_rev : forall l g, lsum (rev l) g = lsum l g.
Proof. induction l as [|k l IH]; intros; simpl; auto. rewrite lsum_app, IH. simpl. lra. Qed.
Lemma lsum_seq : forall n lo g, lsum (seq lo n) g = sums lo n g.
Proof.
  intros n lo g. unfold sums. induction n; auto. rewrite seq_S, lsum_app, IHn. simpl. lra.
Qed.

Section Added.
Variables (E0 : nat) (e : nat -> fl) (ok : nat -> Prop) (x M D : nat -> R).
Variables (s : fl) (ok0 : Prop) (x0 M0 D0 : R).
Hypothesis Hs : appr prec emax E0 ok0 x0 M0 D0 s.
Lemma appr_added : forall l, (forall k, In k l -> appr prec emax E0 (ok k) (x k) (M k) (D k) (e k)) ->
  appr prec emax (E0 + length l) (ok0 /\ forall k, In k l -> ok k) (x0 + lsum l x) (M0 + lsum l M) (D0 + lsum l D) (@added F s l e).
Proof.
  intros l. induction l as [|k l IH] using rev_ind; intros H.
  - simpl. rewrite !Rplus_0_r, Nat.add_0_r. eapply appr_iff; [exact Hs|]. tauto.
  - rewrite added_snoc, app_length. simpl length. change (@add F) with (@Bplus prec emax _ _ mode_NE).
    assert (IH' := IH ltac:(intros; apply H; apply in_or_app; auto)).
    pose proof (appr_plus _ _ _ _ _ _ _ _ _ _ _ _ _ _ _ IH' (appr_weaken _ _ _ (E0 + length l) _ _ _ _ _ _ _ (H k ltac:(apply in_or_app; right; left; auto)) ltac:(lia) (Rle_refl _) (Rle_refl _))) as K.
    rewrite !lsum_app. simpl lsum. rewrite !Rplus_0_r, <- !Rplus_assoc, Nat.add_assoc.
    eapply appr_iff; [exact K|]. split.
    + intros ((K1 & K2) & K3). split; auto. intros j Hj. apply in_app_or in Hj. destruct Hj as [Hj|[<-|[]]]; auto.
    + intros (K1 & K2). split; [split|]; auto; intros; apply K2; apply in_or_app; auto. right; left; auto.
Qed.
End Added.

Variables (t : triangle) (d : diagonal) (n : nat).
Variables (a : nat -> nat -> fl) (f : nat -> fl).

(** [l] lists the indices of row i of the triangle beside the diagonal *)
Definition lists_row (i : nat) (l : list nat) : Prop :=
  (forall k, In k l <-> (k < n)%nat /\ k <> i /\ in_tri t i k) /\
  (forall g, sums (row_lo t i) (row_len t n i) g = lsum l g + g i) /\ (length l + 1 <= n)%nat.
Lemma row_order_lists : forall i, (i < n)%nat -> lists_row i (row_order t n i).
Proof.
  intros i Hi. split; [|split].
  - intros k. unfold row_order. destruct t; simpl; [rewrite <- in_rev|]; rewrite in_seq; lia.
  - intros g. unfold row_order, row_lo, row_len. destruct t; [rewrite lsum_rev|]; rewrite lsum_seq; unfold sums.
    + rewrite Nat.add_1_r. simpl. auto.
    + replace (n - i)%nat with (1 + (n - (i + 1)))%nat by lia. rewrite rsum_app. simpl. rewrite Nat.add_0_r.
      rewrite (rsum_ext _ (fun k => g (i + Datatypes.S k)%nat) (fun k => g (i + 1 + k)%nat)) by (intros; f_equal; lia). lra.
  - unfold row_order. destruct t; rewrite ?rev_length, seq_length; lia.
Qed.

(** the diagonal term first *)
Lemma inplace_gen : forall i l (e : nat -> fl) (dg : fl), (i < n)%nat -> lists_row i l ->
  (forall k, appr prec emax 1 (is_finite (a i k) = true /\ is_finite (f k) = true) (B2R (a i k) * B2R (f k)) (Rabs (B2R (a i k)) * Rabs (B2R (f k))) eta (e k)) ->
  appr prec emax 1 (is_finite (a i i) = true /\ is_finite (f i) = true) (B2R (a i i) * B2R (f i)) (Rabs (B2R (a i i)) * Rabs (B2R (f i))) eta dg ->
  tri_accurate n t d n i (@zero F) a f (@added F (@times_diag F d dg (f i)) l e).
Proof.
  intros i l e dg Hi (order_in & order_sum & order_len) He1 Hd1. apply (ap_spec prec emax). destruct (sums_row prec emax t d n a f i Hi) as [<- <-].
  change (B2R (@zero F)) with 0. rewrite Rabs_R0, !Rplus_0_l. rewrite !order_sum.
  assert (T : in_tri t i i) by (destruct t; simpl; lia).
  assert (A0 : appr prec emax 1 (ok_at prec emax t d a f i i) (rtri t d a i i * B2R (f i)) (Rabs (rtri t d a i i) * Rabs (B2R (f i))) eta (@times_diag F d dg (f i))).
  { unfold ok_at, times_diag. destruct d eqn:E; cbv iota; rewrite <- E.
    - assert (S : stored t d i i) by (split; auto; congruence). rewrite rtri_stored by auto. eapply appr_iff; [exact Hd1|]. tauto.
    - rewrite rtri_unit, Rabs_R1, !Rmult_1_l by auto. pose proof (eta_pos prec emax).
      eapply appr_iff; [eapply appr_weaken; [apply appr_exact|lia|lra|lra]|].
      split; [|tauto]. intros; split; auto. intros [_ S]. exfalso; apply S; auto. }
  assert (A1 : forall k, In k l -> appr prec emax 1 (ok_at prec emax t d a f i k) (rtri t d a i k * B2R (f k)) (Rabs (rtri t d a i k) * Rabs (B2R (f k))) eta (e k)).
  { intros k Hk. apply order_in in Hk. destruct Hk as (K1 & K2 & K3). assert (S : stored t d i k) by (split; auto).
    rewrite rtri_stored by auto. eapply appr_iff; [apply He1|]. unfold ok_at. tauto. }
  pose proof (appr_added 1 e (ok_at prec emax t d a f i) (fun k => rtri t d a i k * B2R (f k)) (fun k => Rabs (rtri t d a i k) * Rabs (B2R (f k))) (fun _ => eta)
    _ _ _ _ _ A0 l A1) as K.
  rewrite (Rplus_comm (lsum _ _) (rtri t d a i i * _)), (Rplus_comm (lsum _ _) (Rabs (rtri t d a i i) * _)).
  eapply appr_iff; [eapply appr_weaken; [exact K|lia|lra|]|].
  - replace (eta + lsum l (fun _ => eta)) with (sums (row_lo t i) (row_len t n i) (fun _ => eta)) by (rewrite order_sum; lra).
    apply sums_eta. apply row_len_le; auto.
  - rewrite <- (ok_row prec emax t d n a f i Hi). change (is_finite (@zero F : fl)) with true. split.
    + intros [K1 K2]. split; auto. intros k Hk. apply row_in in Hk; auto. destruct (Nat.eq_dec k i) as [->|N]; auto.
      apply K2. apply order_in; tauto.
    + intros [_ K1]. split; [apply K1; apply row_in; auto|]. intros k Hk. apply K1. apply row_in; auto. apply order_in in Hk; tauto.
Qed.
End Tri.

Section Float.
Context (prec emax : Z) (Hp : Prec_gt_0 prec) (He : Prec_lt_emax prec emax).
Notation F := (ieee_ops prec emax Hp He).
Notation fl := (binary_float prec emax).
Notation eta := (half_tiny prec emax).
Local Open Scope nat_scope.

Lemma prod_comm : forall x y : fl,
  appr prec emax 1 (is_finite x = true /\ is_finite y = true) (B2R x * B2R y) (Rabs (B2R x) * Rabs (B2R y)) eta (Bmult mode_NE y x).
Proof.
  intros. rewrite (Rmult_comm (B2R x)), (Rmult_comm (Rabs (B2R x))). eapply appr_iff; [apply appr_prod|]. tauto.
Qed.
Lemma inplace_gen_r : forall t d n (a : nat -> nat -> F) (f : nat -> F) j, j < n ->
  tri_accurate_r n t d n j (@zero F) a f (@added F (@times_diag F d (@mul F (f j) (a j j)) (f j)) (col_order t n j) (fun k => @mul F (f k) (a k j))).
Proof.
  intros t d n a f j Hj.
  assert (K : tri_accurate n (flip t) d n j (@zero F) (fun i j => a j i) f
    (@added F (@times_diag F d (@mul F (f j) (a j j)) (f j)) (col_order t n j) (fun k => @mul F (f k) (a k j)))).
  { apply inplace_gen; auto; try (intros; apply prod_comm).
    destruct (row_order_lists (flip t) n j Hj) as (L1 & L2 & L3). unfold row_order in *. destruct t; simpl flip in *; cbv iota in *.
    - split; [|split]; auto.
    - split; [|split].
      + intros k. rewrite <- L1, <- in_rev. simpl. tauto.
      + intros g. rewrite L2, lsum_rev. auto.
      + rewrite rev_length in L3. exact L3. }
  unfold tri_accurate in K. unfold tri_accurate_r.
  assert (RF : forall k, rtri (flip t) d (fun i j => a j i) j k = rtri t d a k j) by (intros; unfold rtri; apply (@tri_of_flip real_ops)).
  rewrite (rsum_ext n (fun k => (rtri (flip t) d (fun i j => a j i) j k * B2R (f k))%R) (fun k => (B2R (f k) * rtri t d a k j)%R)) in K by (intros; rewrite RF; apply Rmult_comm).
  rewrite (rsum_ext n (fun k => (Rabs (rtri (flip t) d (fun i j => a j i) j k) * Rabs (B2R (f k)))%R) (fun k => (Rabs (B2R (f k)) * Rabs (rtri t d a k j))%R)) in K by (intros; rewrite RF; apply Rmult_comm).
  assert (IT : forall k, in_tri (flip t) j k <-> in_tri t k j) by (intros; destruct t; simpl; tauto).
  assert (ST : forall k, stored (flip t) d j k <-> stored t d k j) by (intros; unfold stored; rewrite IT; intuition congruence).
  destruct K as [K1 K2]. split.
  - intros H. destruct (K1 H) as [(Q1 & Q2 & Q3) Q4]. split; auto. split; auto. split; intros k Hk Hs.
    + apply Q2; auto. apply IT; auto. + apply Q3; auto. apply ST; auto.
  - intros (Q1 & Q2 & Q3) Q4. apply K2; auto. split; auto. split; intros k Hk Hs.
    + apply Q2; auto. apply IT; auto. + apply Q3; auto. apply ST; auto.
Qed.
Lemma trmv_inplace_float : forall (m : mem F) A t d y a f,
  ext0 A = ext1 A -> vext y = ext0 A ->
  mat_holds_on m A (stored t d) a -> vec_holds m y f -> vwritable y ->
  disjoint (mcells_on A (stored t d)) (vcells y) ->
  succeeds (triangular_matrix_vector_product_inplace A t d y) m (fun _ m' =>
    (exists r, vec_holds m' y r /\ forall i, i < vext y -> tri_accurate (ext1 A) t d (ext1 A) i (@zero F) a f (r i)) /\
    changes_only m m' (vcells y)).
Proof.
  intros. eapply wp_conseq; [apply (@trmv_inplace_exact F); eauto|]. intros [] m' [K1 K2]. split; auto.
  eexists; split; [exact K1|]. intros i Hi. apply (inplace_gen prec emax Hp He t d (ext1 A) a f); try lia.
  - apply row_order_lists. lia.
  - intros. apply appr_prod.
  - apply prod_comm.
Qed.
Lemma trmm_left_inplace_float : forall (m : mem F) A t d C a c,
  ext0 A = ext1 A -> ext0 C = ext0 A ->
  mat_holds_on m A (stored t d) a -> mat_holds m C c -> mwritable C ->
  disjoint (mcells_on A (stored t d)) (mcells C) ->
  succeeds (triangular_matrix_left_product A t d C) m (fun _ m' =>
    (exists r, mat_holds m' C r /\ forall i j, i < ext0 C -> j < ext1 C ->
       tri_accurate (ext1 A) t d (ext1 A) i (@zero F) a (fun k => c k j) (r i j)) /\
    changes_only m m' (mcells C)).
Proof.
  intros. eapply wp_conseq; [apply (@trmm_left_inplace_exact F); eauto|]. intros [] m' [K1 K2]. split; auto.
  eexists; split; [exact K1|]. intros i j Hi Hj. apply (inplace_gen prec emax Hp He t d (ext1 A) a (fun k => c k j)); try lia.
  - apply row_order_lists. lia.
  - intros. apply appr_prod.
  - apply appr_prod.
Qed.
Lemma trmm_right_inplace_float : forall (m : mem F) A t d C a c,
  ext0 A = ext1 A -> ext1 C = ext0 A ->
  mat_holds_on m A (stored t d) a -> mat_holds m C c -> mwritable C ->
  disjoint (mcells_on A (stored t d)) (mcells C) ->
  succeeds (triangular_matrix_right_product A t d C) m (fun _ m' =>
    (exists r, mat_holds m' C r /\ forall i j, i < ext0 C -> j < ext1 C ->
       tri_accurate_r (ext1 A) t d (ext1 A) j (@zero F) a (c i) (r i j)) /\
    changes_only m m' (mcells C)).
Proof.
  intros. eapply wp_conseq; [apply (@trmm_right_inplace_exact F); eauto|]. intros [] m' [K1 K2]. split; auto.
  eexists; split; [exact K1|]. intros i j Hi Hj. apply (inplace_gen_r t d (ext1 A) a (c i)). lia.
Qed.
End Float.

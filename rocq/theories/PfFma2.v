(** Error bounds of the algorithms in contracted arithmetic (after PfFloat2.v). *)
From Coq Require Import List Arith ZArith Reals Lia Lra Psatz Bool.
From Flocq Require Import Core.Core IEEE754.BinarySingleNaN.
From Verif Require Import Mem Scalar View Spec SpecR SpecF SpecF2 Idx Wp Loops Sums Norm Ieee Blas1 Blas2 Blas3 Fma SpecFma
  PfBlas1 PfBlas2 PfTrmv PfRank PfBlas3 PfIeee PfApprox PfFloat2 PfFma.

Section Tri.
Context (prec emax : Z) (Hp : Prec_gt_0 prec) (He : Prec_lt_emax prec emax).
Notation F := (fma_ops prec emax Hp He).
Notation fl := (binary_float prec emax).
Notation eta := (half_tiny prec emax).
Local Open Scope R_scope.
Variables (t : triangle) (d : diagonal) (n : nat).
Variables (a : nat -> nat -> fl) (f : nat -> fl).
Notation row_lo := (PfFloat2.row_lo t).
Notation row_len := (PfFloat2.row_len t n).
Notation ok_at := (PfFloat2.ok_at prec emax t d a f).
Notation ea := (fun i k => exactly (a i k)).
Notation ef := (fun k => exactly (f k)).

Lemma all_papp : forall E ok x M D P, papp prec emax E ok x M D P -> all_values P (approximates E ok x M D).
Proof. intros E ok x M D P H v Hv. eapply pa_val; eauto. Qed.
Lemma tri_term_appr : forall i k, in_tri t i k ->
  papp prec emax 1 (ok_at i k) (rtri t d a i k * B2R (f k)) (Rabs (rtri t d a i k) * Rabs (B2R (f k))) eta (@tri_term F d ea ef i k).
Proof.
  intros i k H. unfold tri_term, ok_at. pose proof (eta_pos prec emax).
  assert (stored t d i k -> papp prec emax 1 (is_finite (f k) = true /\ (stored t d i k -> is_finite (a i k) = true))
    (rtri t d a i k * B2R (f k)) (Rabs (rtri t d a i k) * Rabs (B2R (f k))) eta (@mul F (exactly (a i k)) (exactly (f k)))) as K.
  { intros S. rewrite rtri_stored by auto. eapply papp_iff; [apply papp_prod|]. tauto. }
  destruct (Nat.eqb_spec i k) as [->|N]; [destruct d eqn:E|].
  - cbv iota. rewrite <- ?E in *. apply K. split; auto. congruence.
  - cbv iota. rewrite <- ?E in *. rewrite rtri_unit, Rabs_R1, !Rmult_1_l by auto.
    eapply papp_iff; [eapply papp_weaken; [apply papp_exact|lia|lra|lra]|].
    split; [|tauto]. intros; split; auto. intros [_ S]. exfalso; apply S; auto.
  - apply K. split; auto. 
Qed.
Lemma tri_row_val : forall (s : F) i, @tri_row F s t d n ea ef i = @sum_from F s (row_lo i) (row_len i) (@tri_term F d ea ef i).
Proof. intros. unfold tri_row, row_lo, row_len. destruct t; auto. Qed.
Lemma tri_row_acc : forall (s : fl) i, (i < n)%nat -> all_values (@tri_row F (exactly s) t d n ea ef i) (tri_accurate (n + 1) t d n i s a f).
Proof.
  intros s i Hi. rewrite tri_row_val. eapply all_papp. destruct (sums_row prec emax t d n a f i Hi) as [<- <-].
  eapply papp_iff; [eapply papp_weaken; [eapply papp_sum with (E0 := 1%nat) (ok := ok_at i) (D := fun _ => eta)| | |]|].
  - intros k Hk. apply tri_term_appr. apply row_in in Hk; tauto.
  - pose proof (row_len_le t n i Hi). lia.
  - lra.
  - apply sums_eta, row_len_le; auto.
  - rewrite ok_row by auto. tauto.
Qed.
Lemma tri_row_acc0 : forall i, (i < n)%nat -> all_values (@tri_row F (@zero F) t d n ea ef i) (tri_accurate n t d n i (B754_zero false) a f).
Proof.
  intros i Hi. rewrite tri_row_val. eapply all_papp. destruct (sums_row prec emax t d n a f i Hi) as [<- <-].
  change (B2R (B754_zero false : fl)) with 0. rewrite Rabs_R0, !Rplus_0_l.
  eapply papp_iff; [eapply papp_weaken; [eapply papp_bigsum with (E0 := 1%nat) (ok := ok_at i) (D := fun _ => eta)| | |]|].
  - intros k Hk. apply tri_term_appr. apply row_in in Hk; tauto.
  - pose proof (row_len_le t n i Hi). assert (0 < row_len i)%nat by (unfold row_len; destruct t; lia). lia.
  - lra.
  - apply sums_eta, row_len_le; auto.
  - rewrite ok_row by auto. change (is_finite (B754_zero false : fl)) with true. tauto.
Qed.
Lemma tri_elem_gen : forall i (e : nat -> F), (i < n)%nat ->
  (forall k, papp prec emax 1 (is_finite (a i k) = true /\ is_finite (f k) = true) (B2R (a i k) * B2R (f k)) (Rabs (B2R (a i k)) * Rabs (B2R (f k))) eta (e k)) ->
  all_values (@tri_elem F (is_lower t) d n i e (exactly (f i))) (tri_accurate n t d n i (B754_zero false) a f).
Proof.
  intros i e Hi Hte. destruct d eqn:Ed.
  - rewrite <- Ed. eapply all_papp. destruct (sums_row prec emax t d n a f i Hi) as [<- <-].
    change (B2R (B754_zero false : fl)) with 0. rewrite Rabs_R0, !Rplus_0_l.
    replace (@tri_elem F (is_lower t) d n i e (exactly (f i))) with (@sum_from F (@zero F) (row_lo i) (row_len i) e)
      by (rewrite Ed; unfold tri_elem, row_lo, row_len; destruct t; cbn [is_lower is_explicit]; rewrite ?Nat.sub_0_r; auto).
    eapply papp_iff; [eapply papp_weaken; [eapply papp_bigsum with (E0 := 1%nat) (ok := ok_at i) (x := fun k => rtri t d a i k * B2R (f k)) (M := fun k => Rabs (rtri t d a i k) * Rabs (B2R (f k))) (D := fun _ => eta)| | |]|].
    + intros k Hk. apply row_in in Hk; auto. assert (S : stored t d i k) by (split; [tauto|congruence]).
      rewrite rtri_stored by auto. eapply papp_iff; [apply Hte|]. unfold ok_at. tauto.
    + pose proof (row_len_le t n i Hi). assert (0 < row_len i)%nat by (unfold row_len; destruct t; lia). lia.
    + lra.
    + apply sums_eta, row_len_le; auto.
    + rewrite ok_row by auto. change (is_finite (B754_zero false : fl)) with true. tauto.
  - rewrite <- Ed. eapply all_papp. destruct (sums_row prec emax t d n a f i Hi) as [<- <-].
    change (B2R (B754_zero false : fl)) with 0. rewrite Rabs_R0, !Rplus_0_l. rewrite Ed.
    set (lo := if is_lower t then 0%nat else (i + 1)%nat). set (len := ((if is_lower t then i else n) - lo)%nat).
    change (@tri_elem F (is_lower t) ImplicitUnit n i e (exactly (f i)))
      with (@add F (@sum_from F (@zero F) lo len e) (exactly (f i))).
    assert (HR : forall k, (lo <= k < lo + len)%nat <-> (k < n)%nat /\ stored t d i k).
    { intros k. unfold len, lo, stored. rewrite Ed. destruct t; simpl.
      - split; [intros K; split; [lia|split; [lia|intros _; lia]]|]. intros (K1 & K2 & N). specialize (N eq_refl).
  lia.
      - split; [intros K; split; [lia|split; [lia|intros _; lia]]|]. intros (K1 & K2 & N). specialize (N eq_refl). lia. }
    assert (HS : forall g, sums (row_lo i) (row_len i) g = sums lo len g + g i).
    { intros g. unfold sums, row_lo, row_len, len, lo. destruct t; simpl is_lower; cbv iota.
      - rewrite Nat.sub_0_r, Nat.add_1_r. simpl. auto.
      - replace (n - i)%nat with (1 + (n - (i + 1)))%nat by lia. rewrite rsum_app. simpl. rewrite Nat.add_0_r.
        rewrite (rsum_ext _ (fun k => g (i + Datatypes.S k)%nat) (fun k => g (i + 1 + k)%nat)) by (intros; f_equal; lia). lra. }
    rewrite !HS. rewrite <- Ed, (rtri_unit prec emax t d a i Ed), Rabs_R1, !Rmult_1_l.
    assert (A1 : papp prec emax (1 + Nat.pred len) (forall k, (lo <= k < lo + len)%nat -> ok_at i k)
      (sums lo len (fun k => rtri t d a i k * B2R (f k))) (sums lo len (fun k => Rabs (rtri t d a i k) * Rabs (B2R (f k)))) (sums lo len (fun _ => eta))
      (@sum_from F (@zero F) lo len e)).
    { apply papp_bigsum. intros k Hk. apply HR in Hk. destruct Hk as [Hk Hs]. rewrite rtri_stored by auto.
      eapply papp_iff; [apply Hte|]. unfold ok_at. tauto. }
    assert (LL : (len + 1 <= n)%nat) by (unfold len, lo; destruct t; simpl; lia).
    assert (A2 : papp prec emax n ((forall k, (lo <= k < lo + len)%nat -> ok_at i k) /\ is_finite (f i) = true)
      (sums lo len (fun k => rtri t d a i k * B2R (f k)) + B2R (f i)) (sums lo len (fun k => Rabs (rtri t d a i k) * Rabs (B2R (f k))) + Rabs (B2R (f i)))
      (INR n * eta) (@add F (@sum_from F (@zero F) lo len e) (exactly (f i)))).
    { assert (0 <= INR n * eta) by (apply Rmult_le_pos; [apply pos_INR|pose proof (eta_pos prec emax); lra]).
      clearbody len. destruct len as [|len'].
      - unfold sums. simpl rsum. rewrite !Rplus_0_l. change (@sum_from F (@zero F) lo 0 _) with (@zero F).
        eapply papp_iff; [eapply papp_weaken; [apply papp_plus_zero, papp_exact|lia|lra|lra]|].
        split; [intros; split; auto; intros; lia|tauto].
      - eapply papp_weaken; [eapply papp_plus; [exact A1|eapply papp_weaken with (D' := 0); [apply papp_exact|lia|apply Rle_refl|lra]]|simpl; lia|lra|].
        rewrite Rplus_0_r. apply sums_eta. lia. }
    eapply papp_iff; [exact A2|]. rewrite <- ok_row by auto. split.
    + intros [K1 K2]. split; auto. intros k Hk. apply row_in in Hk; auto.
      destruct (Nat.eq_dec i k) as [<-|N]; [split; auto; intros [_ S]; exfalso; apply S; auto|].
      apply K1, HR. split; [tauto|]. split; [tauto|auto].
    + intros [_ K]. split; [|apply (K i); apply row_in; auto; split; auto; destruct t; simpl; lia].
      intros k Hk. apply K. apply row_in; auto. apply HR in Hk. unfold stored in Hk. tauto.
Qed.
Lemma tri_elem_acc : forall i, (i < n)%nat ->
  all_values (@tri_elem F (is_lower t) d n i (fun k => @mul F (exactly (a i k)) (exactly (f k))) (exactly (f i))) (tri_accurate n t d n i (B754_zero false) a f).
Proof. intros. apply tri_elem_gen; auto. intros; apply papp_prod. Qed.
End Tri.

Section Float2.
Context (prec emax : Z) (Hp : Prec_gt_0 prec) (He : Prec_lt_emax prec emax).
Notation F := (fma_ops prec emax Hp He).
Notation fl := (binary_float prec emax).
Notation eta := (half_tiny prec emax).
Local Open Scope R_scope.

Lemma tri_elem_acc_r : forall t d n (a : nat -> nat -> fl) (f : nat -> fl) j, (j < n)%nat ->
  all_values (@tri_elem F (negb (is_lower t)) d n j (fun k => @mul F (exactly (f k)) (exactly (a k j))) (exactly (f j)))
    (tri_accurate_r n t d n j (B754_zero false) a f).
Proof.
  intros t d n a f j Hj v Hv.
  assert (K : tri_accurate n (flip t) d n j (B754_zero false) (fun i j => a j i) f v).
  { replace (negb (is_lower t)) with (is_lower (flip t)) in Hv by (destruct t; auto).
    refine (tri_elem_gen prec emax Hp He (flip t) d n (fun i j => a j i) f j _ Hj _ v Hv). intros k. cbv beta. rewrite (Rmult_comm (B2R (a k j))), (Rmult_comm (Rabs (B2R (a k j)))).
    eapply papp_iff; [apply papp_prod|]. tauto. }
  unfold tri_accurate in K. unfold tri_accurate_r.
  assert (RF : forall k, rtri (flip t) d (fun i j => a j i) j k = rtri t d a k j) by (intros; unfold rtri; apply (@tri_of_flip real_ops)).
  rewrite (rsum_ext n (fun k => (rtri (flip t) d (fun i j => a j i) j k * B2R (f k))%R) (fun k => (B2R (f k) * rtri t d a k j)%R)) in K by (intros; rewrite RF; apply Rmult_comm).
  rewrite (rsum_ext n (fun k => (Rabs (rtri (flip t) d (fun i j => a j i) j k) * Rabs (B2R (f k)))%R) (fun k => (Rabs (B2R (f k)) * Rabs (rtri t d a k j))%R)) in K by (intros; rewrite RF; apply Rmult_comm).
  assert (IT : forall k, in_tri (flip t) j k <-> in_tri t k j) by (intros; destruct t; simpl; tauto).
  assert (ST : forall k, stored (flip t) d j k <-> stored t d k j) by (intros; unfold stored; rewrite IT; intuition congruence).
  destruct K as [K1 K2]. split.
  - intros H. destruct (K1 H) as [(Q1 & Q2 & Q3) Q4]. split; auto. split; auto. split; intros k Hk Hs.
    + apply Q2; auto. apply IT; auto. + apply Q3; auto. apply ST; auto.
  - intros (Q1 & Q2 & Q3) Q4. apply K2; auto. split; auto. split; intros k Hk Hs.
    + apply Q2; auto. apply IT; auto. + apply Q3; auto. apply ST; auto.
Qed.


(** sums of products *)
Lemma dot_acc : forall n (s : fl) (f g : nat -> fl),
  all_values (@sum_from F (exactly s) 0 n (fun k => @mul F (exactly (f k)) (exactly (g k)))) (dot_accurate (n + 1) n s f g).
Proof.
  intros. eapply all_papp. rewrite (Nat.add_comm n 1). rewrite <- (rsum_const n eta).
  eapply papp_iff; [apply (papp_sum prec emax Hp He 1 _ (fun k => is_finite (f k) = true /\ is_finite (g k) = true)
    (fun k => B2R (f k) * B2R (g k)) (fun k => Rabs (B2R (f k)) * Rabs (B2R (g k))) (fun _ => eta) 0 n s)|].
  - intros k _. apply papp_prod.
  - split; intros [K1 K2]; split; auto; [split; intros k Hk; apply (K2 k); lia|intros k Hk; split; apply K2; lia].
Qed.
Lemma dot_acc0 : forall n (f g : nat -> fl),
  all_values (@bigsum F n (fun k => @mul F (exactly (f k)) (exactly (g k)))) (dot_accurate n n (B754_zero false) f g).
Proof.
  intros. eapply all_papp. rewrite <- (rsum_const n eta). cbn [B2R]. rewrite Rabs_R0, !Rplus_0_l.
  eapply papp_iff.
  - instantiate (1 := forall k, (0 <= k < 0 + n)%nat -> is_finite (f k) = true /\ is_finite (g k) = true). destruct n as [|n].
    + pose proof (papp_exact prec emax (B754_zero false)) as K. simpl B2R in K. rewrite Rabs_R0 in K. simpl rsum.
      eapply papp_iff; [exact K|]. split; auto. intros; lia.
    + exact (papp_bigsum prec emax Hp He 1 (fun k => @mul F (exactly (f k)) (exactly (g k))) (fun k => is_finite (f k) = true /\ is_finite (g k) = true)
      (fun k => B2R (f k) * B2R (g k)) (fun k => Rabs (B2R (f k)) * Rabs (B2R (g k))) (fun _ => eta) 0 (S n) ltac:(intros; apply papp_prod)).
  - split; intros K; [split; auto; split; intros k Hk; apply (K k); lia|destruct K as (_ & K1 & K2); intros k Hk; split; [apply K1|apply K2]; lia].
Qed.
(** rank updates *)
Lemma upd1_acc : forall c x y : fl,
  all_values (@add F (exactly c) (@mul F (exactly x) (exactly y)))
  (approximates 2 (is_finite c = true /\ is_finite x = true /\ is_finite y = true) (B2R c + B2R x * B2R y)
    (Rabs (B2R c) + Rabs (B2R x) * Rabs (B2R y)) eta).
Proof.
  intros. eapply all_papp.
  pose proof (papp_plus prec emax Hp He _ _ _ _ _ _ _ _ _ _ _ (papp_weaken prec emax 0 1 _ _ _ _ _ _ _ (papp_exact prec emax c) ltac:(lia) (Rle_refl _) (Rle_refl _)) (papp_prod prec emax Hp He x y)) as K.
  rewrite Rplus_0_l in K. exact K.
Qed.
Lemma upd1a_acc : forall c alpha x y : fl,
  all_values (@add F (exactly c) (@mul F (@mul F (exactly alpha) (exactly x)) (exactly y)))
  (approximates 3 (is_finite c = true /\ is_finite alpha = true /\ is_finite x = true /\ is_finite y = true /\ is_finite (Bmult mode_NE alpha x) = true)
    (B2R c + B2R alpha * B2R x * B2R y)
    (Rabs (B2R c) + Rabs (B2R alpha) * Rabs (B2R x) * Rabs (B2R y)) (eta * Rabs (B2R y) + eta)).
Proof.
  intros. eapply all_papp.
  pose proof (papp_plus prec emax Hp He _ _ _ _ _ _ _ _ _ _ _ (papp_weaken prec emax 0 2 _ _ _ _ _ _ _ (papp_exact prec emax c) ltac:(lia) (Rle_refl _) (Rle_refl _)) (papp_prod3 prec emax Hp He alpha x y)) as K.
  rewrite Rplus_0_l in K. eapply papp_iff; [exact K|]. tauto.
Qed.
Lemma two_papp : forall x y z w : fl,
  papp prec emax 2 (is_finite x = true /\ is_finite y = true /\ is_finite z = true /\ is_finite w = true)
    (B2R x * B2R y + B2R z * B2R w) (Rabs (B2R x) * Rabs (B2R y) + Rabs (B2R z) * Rabs (B2R w)) (2 * eta)
    (@add F (@mul F (exactly x) (exactly y)) (@mul F (exactly z) (exactly w))).
Proof.
  intros. pose proof (papp_plus prec emax Hp He _ _ _ _ _ _ _ _ _ _ _ (papp_prod prec emax Hp He x y) (papp_prod prec emax Hp He z w)) as K.
  replace (eta + eta) with (2 * eta) in K by ring. eapply papp_iff; [exact K|]. tauto.
Qed.
Lemma upd2_acc : forall c x y z w : fl,
  all_values (@add F (exactly c) (@add F (@mul F (exactly x) (exactly y)) (@mul F (exactly z) (exactly w))))
  (approximates 3 (is_finite c = true /\ is_finite x = true /\ is_finite y = true /\ is_finite z = true /\ is_finite w = true)
    (B2R c + (B2R x * B2R y + B2R z * B2R w)) (Rabs (B2R c) + (Rabs (B2R x) * Rabs (B2R y) + Rabs (B2R z) * Rabs (B2R w))) (2 * eta)).
Proof.
  intros. eapply all_papp.
  pose proof (papp_plus prec emax Hp He _ _ _ _ _ _ _ _ _ _ _ (papp_weaken prec emax 0 2 _ _ _ _ _ _ _ (papp_exact prec emax c) ltac:(lia) (Rle_refl _) (Rle_refl _)) (two_papp x y z w)) as K.
  rewrite Rplus_0_l in K. exact K.
Qed.
Lemma updk_acc : forall n (c alpha : fl) (x y : nat -> fl),
  all_values (@sum_from F (exactly c) 0 n (fun k => @mul F (@mul F (exactly alpha) (exactly (x k))) (exactly (y k))))
  (approximates (n + 2) (is_finite c = true /\ (0 < n -> is_finite alpha = true)%nat /\ all_finite n x /\ all_finite n y /\ all_finite n (fun k => Bmult mode_NE alpha (x k)))
    (B2R c + rsum n (fun k => B2R alpha * B2R (x k) * B2R (y k)))
    (Rabs (B2R c) + rsum n (fun k => Rabs (B2R alpha) * Rabs (B2R (x k)) * Rabs (B2R (y k))))
    (rsum n (fun k => eta * Rabs (B2R (y k)) + eta))).
Proof.
  intros. eapply all_papp. rewrite Nat.add_comm. eapply papp_iff.
  { apply (papp_sum prec emax Hp He 2 _
      (fun k => is_finite (Bmult mode_NE alpha (x k)) = true /\ (is_finite alpha = true /\ is_finite (x k) = true) /\ is_finite (y k) = true)
      (fun k => B2R alpha * B2R (x k) * B2R (y k)) (fun k => Rabs (B2R alpha) * Rabs (B2R (x k)) * Rabs (B2R (y k)))
      (fun k => eta * Rabs (B2R (y k)) + eta) 0 n c).
    intros k _. apply papp_prod3. }
  split.
  - intros (K1 & K2). split; auto. split; [intros Hn; apply (K2 0%nat); lia|]. repeat split; intros k Hk; apply (K2 k); lia.
  - intros (K1 & K2 & K3 & K4 & K5). split; auto. intros k Hk. assert (k < n)%nat by lia. repeat split; auto; try apply K5; auto; apply K2; lia.
Qed.
Lemma upd2k_acc : forall n (c : fl) (x y z w : nat -> fl),
  all_values (@sum_from F (exactly c) 0 n (fun k => @add F (@mul F (exactly (x k)) (exactly (y k))) (@mul F (exactly (z k)) (exactly (w k)))))
  (approximates (n + 2) (is_finite c = true /\ all_finite n x /\ all_finite n y /\ all_finite n z /\ all_finite n w)
    (B2R c + rsum n (fun k => B2R (x k) * B2R (y k) + B2R (z k) * B2R (w k)))
    (Rabs (B2R c) + rsum n (fun k => Rabs (B2R (x k)) * Rabs (B2R (y k)) + Rabs (B2R (z k)) * Rabs (B2R (w k))))
    (INR n * (2 * eta))).
Proof.
  intros. eapply all_papp. rewrite Nat.add_comm. rewrite <- (rsum_const n (2 * eta)). eapply papp_iff.
  { apply (papp_sum prec emax Hp He 2 _
      (fun k => is_finite (x k) = true /\ is_finite (y k) = true /\ is_finite (z k) = true /\ is_finite (w k) = true)
      (fun k => B2R (x k) * B2R (y k) + B2R (z k) * B2R (w k))
      (fun k => Rabs (B2R (x k)) * Rabs (B2R (y k)) + Rabs (B2R (z k)) * Rabs (B2R (w k)))
      (fun k => 2 * eta) 0 n c).
    intros k _. apply two_papp. }
  split.
  - intros (K1 & K2). split; auto. repeat split; intros k Hk; apply (K2 k); lia.
  - intros (K1 & K2 & K3 & K4 & K5). split; auto. intros k Hk. assert (k < n)%nat by lia. repeat split; auto.
Qed.

Local Open Scope nat_scope.
Lemma sym_of_exactly : forall t (a : nat -> nat -> fl) i k, @sym_of F t (fun i j => exactly (a i j)) i k = exactly (@sym_of (ieee_ops prec emax Hp He) t a i k).
Proof. intros. unfold sym_of. destruct (in_tri_b _ _ _); auto. Qed.
Lemma bigsum_ext' : forall n (e e' : nat -> F), (forall k, k < n -> e k = e' k) -> @bigsum F n e = @bigsum F n e'.
Proof. intros. apply sum_from_ext. intros k Hk. apply H; lia. Qed.
Lemma dot_fma : forall (m : mem F) x y (f : nat -> fl) (g : nat -> fl) (init : fl),
  vext x = vext y -> vec_holds m x (fun i => exactly (f i)) -> vec_holds m y (fun i => exactly (g i)) ->
  succeeds (dot x y (exactly init)) m (fun r m' => all_values r (dot_accurate (vext x + 1) (vext x) init f g) /\ m' = m).
Proof.
  intros. eapply wp_conseq; [apply (@dot_ok F) with (f := fun i => exactly (f i)) (g := fun i => exactly (g i)); eauto|]. intros r m' [-> ->]. split; auto. apply dot_acc.
Qed.
Lemma dot_noinit_fma : forall (m : mem F) x y (f : nat -> fl) (g : nat -> fl),
  vext x = vext y -> vec_holds m x (fun i => exactly (f i)) -> vec_holds m y (fun i => exactly (g i)) ->
  succeeds (dot_noinit x y) m (fun r m' => all_values r (dot_accurate (vext x) (vext x) (B754_zero false) f g) /\ m' = m).
Proof.
  intros. eapply wp_conseq; [apply (@dot_ok F) with (f := fun i => exactly (f i)) (g := fun i => exactly (g i)); eauto|]. intros r m' [-> ->]. split; auto. apply dot_acc0.
Qed.
Lemma gemv_fma : forall (m : mem F) A x y (a : nat -> nat -> fl) (f : nat -> fl),
  vext x = ext1 A -> vext y = ext0 A ->
  mat_holds m A (fun i j => exactly (a i j)) -> vec_holds m x (fun i => exactly (f i)) -> vwritable y -> allocated m (vcells y) ->
  disjoint (mcells A) (vcells y) -> disjoint (vcells x) (vcells y) ->
  succeeds (matrix_vector_product A x y) m (fun _ m' =>
    (exists r, vec_holds m' y r /\ forall i, i < vext y -> all_values (r i) (dot_accurate (ext1 A) (ext1 A) (B754_zero false) (a i) f)) /\
    changes_only m m' (vcells y)).
Proof.
  intros. eapply wp_conseq; [apply (@gemv_ok F) with (a := fun i j => exactly (a i j)) (f := fun i => exactly (f i)); eauto|]. intros [] m' [K1 K2]. split; auto.
  eexists; split; [exact K1|]. intros i Hi. exact (dot_acc0 _ (a i) f).
Qed.
Lemma gemv_upd_fma : forall (m : mem F) A x y z (a : nat -> nat -> fl) (f : nat -> fl) (g : nat -> fl),
  vext x = ext1 A -> vext y = ext0 A -> vext z = ext0 A ->
  mat_holds m A (fun i j => exactly (a i j)) -> vec_holds m x (fun i => exactly (f i)) -> vec_holds m y (fun i => exactly (g i)) -> vwritable z -> allocated m (vcells z) ->
  disjoint (mcells A) (vcells z) -> disjoint (vcells x) (vcells z) -> disjoint_or_aligned_v y z ->
  succeeds (matrix_vector_product_upd A x y z) m (fun _ m' =>
    (exists r, vec_holds m' z r /\ forall i, i < vext z -> all_values (r i) (dot_accurate (ext1 A + 1) (ext1 A) (g i) (a i) f)) /\
    changes_only m m' (vcells z)).
Proof.
  intros. eapply wp_conseq; [apply (@gemv_upd_ok F) with (a := fun i j => exactly (a i j)) (f := fun i => exactly (f i)) (g := fun i => exactly (g i)); eauto|]. intros [] m' [K1 K2]. split; auto.
  eexists; split; [exact K1|]. intros i Hi. exact (dot_acc _ (g i) (a i) f).
Qed.
Lemma gemm_fma : forall (m : mem F) A B C (a : nat -> nat -> fl) (b : nat -> nat -> fl),
  ext0 C = ext0 A -> ext1 A = ext0 B -> ext1 C = ext1 B ->
  mat_holds m A (fun i j => exactly (a i j)) -> mat_holds m B (fun i j => exactly (b i j)) -> mwritable C -> allocated m (mcells C) ->
  disjoint (mcells A) (mcells C) -> disjoint (mcells B) (mcells C) ->
  succeeds (matrix_product A B C) m (fun _ m' =>
    (exists r, mat_holds m' C r /\ forall i j, i < ext0 C -> j < ext1 C ->
       all_values (r i j) (dot_accurate (ext1 A) (ext1 A) (B754_zero false) (a i) (fun k => b k j))) /\
    changes_only m m' (mcells C)).
Proof.
  intros. eapply wp_conseq; [apply (@gemm_ok F) with (a := fun i j => exactly (a i j)) (b := fun i j => exactly (b i j)); eauto|]. intros [] m' [K1 K2]. split; auto.
  eexists; split; [exact K1|]. intros i j Hi Hj. exact (dot_acc0 _ (a i) (fun k => b k j)).
Qed.
Lemma gemm_upd_fma : forall (m : mem F) A B E C (a : nat -> nat -> fl) (b : nat -> nat -> fl) (e : nat -> nat -> fl),
  ext0 C = ext0 A -> ext1 A = ext0 B -> ext1 C = ext1 B -> ext0 E = ext0 C -> ext1 E = ext1 C ->
  mat_holds m A (fun i j => exactly (a i j)) -> mat_holds m B (fun i j => exactly (b i j)) -> mat_holds m E (fun i j => exactly (e i j)) -> mwritable C -> allocated m (mcells C) ->
  disjoint (mcells A) (mcells C) -> disjoint (mcells B) (mcells C) -> disjoint_or_aligned_m E C ->
  succeeds (matrix_product_upd A B E C) m (fun _ m' =>
    (exists r, mat_holds m' C r /\ forall i j, i < ext0 C -> j < ext1 C ->
       all_values (r i j) (dot_accurate (ext1 A + 1) (ext1 A) (e i j) (a i) (fun k => b k j))) /\
    changes_only m m' (mcells C)).
Proof.
  intros. eapply wp_conseq; [apply (@gemm_upd_ok F) with (a := fun i j => exactly (a i j)) (b := fun i j => exactly (b i j)) (e := fun i j => exactly (e i j)); eauto|]. intros [] m' [K1 K2]. split; auto.
  eexists; split; [exact K1|]. intros i j Hi Hj. exact (dot_acc _ (e i j) (a i) (fun k => b k j)).
Qed.
Lemma symv_fma : forall (m : mem F) A t x y (a : nat -> nat -> fl) (f : nat -> fl),
  ext0 A = ext1 A -> vext x = ext1 A -> vext y = ext0 A ->
  mat_holds_on m A (in_tri t) (fun i j => exactly (a i j)) -> vec_holds m x (fun i => exactly (f i)) -> vwritable y -> allocated m (vcells y) ->
  disjoint (mcells_on A (in_tri t)) (vcells y) -> disjoint (vcells x) (vcells y) ->
  succeeds (symmetric_matrix_vector_product A t x y) m (fun _ m' =>
    (exists r, vec_holds m' y r /\ forall i, i < vext y -> all_values (r i) (dot_accurate (ext1 A) (ext1 A) (B754_zero false) (@sym_of (ieee_ops prec emax Hp He) t a i) f)) /\
    changes_only m m' (vcells y)).
Proof.
  intros. eapply wp_conseq; [apply (@symv_ok F) with (a := fun i j => exactly (a i j)) (f := fun i => exactly (f i)); eauto|]. intros [] m' [K1 K2]. split; auto.
  eexists; split; [exact K1|]. intros i Hi v Hv. apply (dot_acc0 (ext1 A) (@sym_of (ieee_ops prec emax Hp He) t a i) f). erewrite bigsum_ext'; [exact Hv|]. intros k Hk. cbv beta. rewrite sym_of_exactly. reflexivity.
Qed.
Lemma symv_upd_fma : forall (m : mem F) A t x y z (a : nat -> nat -> fl) (f : nat -> fl) (g : nat -> fl),
  ext0 A = ext1 A -> vext x = ext1 A -> vext y = ext0 A -> vext z = ext0 A ->
  mat_holds_on m A (in_tri t) (fun i j => exactly (a i j)) -> vec_holds m x (fun i => exactly (f i)) -> vec_holds m y (fun i => exactly (g i)) -> vwritable z -> allocated m (vcells z) ->
  disjoint (mcells_on A (in_tri t)) (vcells z) -> disjoint (vcells x) (vcells z) -> disjoint_or_aligned_v y z ->
  succeeds (symmetric_matrix_vector_product_upd A t x y z) m (fun _ m' =>
    (exists r, vec_holds m' z r /\ forall i, i < vext z -> all_values (r i) (dot_accurate (ext1 A + 1) (ext1 A) (g i) (@sym_of (ieee_ops prec emax Hp He) t a i) f)) /\
    changes_only m m' (vcells z)).
Proof.
  intros. eapply wp_conseq; [apply (@symv_upd_ok F) with (a := fun i j => exactly (a i j)) (f := fun i => exactly (f i)) (g := fun i => exactly (g i)); eauto|]. intros [] m' [K1 K2]. split; auto.
  eexists; split; [exact K1|]. intros i Hi v Hv. apply (dot_acc (ext1 A) (g i) (@sym_of (ieee_ops prec emax Hp He) t a i) f). erewrite sum_from_ext; [exact Hv|]. intros k Hk. cbv beta. rewrite sym_of_exactly. reflexivity.
Qed.
Lemma symm_left_fma : forall (m : mem F) A t B C (a : nat -> nat -> fl) (b : nat -> nat -> fl),
  ext0 A = ext1 A -> ext0 C = ext0 A -> ext1 A = ext0 B -> ext1 C = ext1 B ->
  mat_holds_on m A (in_tri t) (fun i j => exactly (a i j)) -> mat_holds m B (fun i j => exactly (b i j)) -> mwritable C -> allocated m (mcells C) ->
  disjoint (mcells_on A (in_tri t)) (mcells C) -> disjoint (mcells B) (mcells C) ->
  succeeds (symmetric_matrix_product_left A t B C) m (fun _ m' =>
    (exists r, mat_holds m' C r /\ forall i j, i < ext0 C -> j < ext1 C ->
       all_values (r i j) (dot_accurate (ext1 A) (ext1 A) (B754_zero false) (@sym_of (ieee_ops prec emax Hp He) t a i) (fun k => b k j))) /\
    changes_only m m' (mcells C)).
Proof.
  intros. eapply wp_conseq; [apply (@symm_left_ok F) with (a := fun i j => exactly (a i j)) (b := fun i j => exactly (b i j)); eauto|]. intros [] m' [K1 K2]. split; auto.
  eexists; split; [exact K1|]. intros i j Hi Hj v Hv. apply (dot_acc0 (ext1 A) (@sym_of (ieee_ops prec emax Hp He) t a i) (fun k => b k j)). erewrite bigsum_ext'; [exact Hv|]. intros k Hk. cbv beta. rewrite sym_of_exactly. reflexivity.
Qed.
Lemma symm_right_fma : forall (m : mem F) B A t C (a : nat -> nat -> fl) (b : nat -> nat -> fl),
  ext0 A = ext1 A -> ext0 C = ext0 B -> ext1 B = ext0 A -> ext1 C = ext1 A ->
  mat_holds_on m A (in_tri t) (fun i j => exactly (a i j)) -> mat_holds m B (fun i j => exactly (b i j)) -> mwritable C -> allocated m (mcells C) ->
  disjoint (mcells_on A (in_tri t)) (mcells C) -> disjoint (mcells B) (mcells C) ->
  succeeds (symmetric_matrix_product_right B A t C) m (fun _ m' =>
    (exists r, mat_holds m' C r /\ forall i j, i < ext0 C -> j < ext1 C ->
       all_values (r i j) (dot_accurate (ext1 A) (ext1 A) (B754_zero false) (b i) (fun k => @sym_of (ieee_ops prec emax Hp He) t a k j))) /\
    changes_only m m' (mcells C)).
Proof.
  intros. eapply wp_conseq; [apply (@symm_right_ok F) with (a := fun i j => exactly (a i j)) (b := fun i j => exactly (b i j)); eauto|]. intros [] m' [K1 K2]. split; auto.
  eexists; split; [exact K1|]. intros i j Hi Hj v Hv. apply (dot_acc0 (ext1 A) (b i) (fun k => @sym_of (ieee_ops prec emax Hp He) t a k j)). erewrite bigsum_ext'; [exact Hv|]. intros k Hk. cbv beta. rewrite sym_of_exactly. reflexivity.
Qed.
Lemma trmv_fma : forall (m : mem F) A t d x y (a : nat -> nat -> fl) (f : nat -> fl),
  ext0 A = ext1 A -> vext x = ext1 A -> vext y = ext0 A ->
  mat_holds_on m A (stored t d) (fun i j => exactly (a i j)) -> vec_holds m x (fun i => exactly (f i)) -> vwritable y -> allocated m (vcells y) ->
  disjoint (mcells_on A (stored t d)) (vcells y) -> disjoint (vcells x) (vcells y) ->
  succeeds (triangular_matrix_vector_product A t d x y) m (fun _ m' =>
    (exists r, vec_holds m' y r /\ forall i, i < vext y -> all_values (r i) (tri_accurate (ext1 A) t d (ext1 A) i (B754_zero false) a f)) /\
    changes_only m m' (vcells y)).
Proof.
  intros. eapply wp_conseq; [apply (@trmv_ok F) with (a := fun i j => exactly (a i j)) (f := fun i => exactly (f i)); eauto|]. intros [] m' [K1 K2]. split; auto.
  eexists; split; [exact K1|]. intros. apply (tri_row_acc0 prec emax Hp He t d (ext1 A) a f). lia.
Qed.
Lemma trmv_upd_fma : forall (m : mem F) A t d x y z (a : nat -> nat -> fl) (f : nat -> fl) (g : nat -> fl),
  ext0 A = ext1 A -> vext x = ext1 A -> vext y = ext0 A -> vext z = ext0 A ->
  mat_holds_on m A (stored t d) (fun i j => exactly (a i j)) -> vec_holds m x (fun i => exactly (f i)) -> vec_holds m y (fun i => exactly (g i)) -> vwritable z -> allocated m (vcells z) ->
  disjoint (mcells_on A (stored t d)) (vcells z) -> disjoint (vcells x) (vcells z) -> disjoint_or_aligned_v y z ->
  succeeds (triangular_matrix_vector_product_upd A t d x y z) m (fun _ m' =>
    (exists r, vec_holds m' z r /\ forall i, i < vext z -> all_values (r i) (tri_accurate (ext1 A + 1) t d (ext1 A) i (g i) a f)) /\
    changes_only m m' (vcells z)).
Proof.
  intros. eapply wp_conseq; [apply (@trmv_upd_ok F) with (a := fun i j => exactly (a i j)) (f := fun i => exactly (f i)) (g := fun i => exactly (g i)); eauto|]. intros [] m' [K1 K2]. split; auto.
  eexists; split; [exact K1|]. intros. apply (tri_row_acc prec emax Hp He t d (ext1 A) a f (g i)). lia.
Qed.
Lemma trmm_left_fma : forall ty (m : mem F) A t d B C (a : nat -> nat -> fl) (b : nat -> nat -> fl),
  fits ty (ext0 C) ->
  ext0 A = ext1 A -> ext0 C = ext0 A -> ext1 A = ext0 B -> ext1 C = ext1 B ->
  mat_holds_on m A (stored t d) (fun i j => exactly (a i j)) -> mat_holds m B (fun i j => exactly (b i j)) -> mwritable C -> allocated m (mcells C) ->
  disjoint (mcells_on A (stored t d)) (mcells C) -> disjoint (mcells B) (mcells C) ->
  succeeds (triangular_matrix_product_left ty A t d B C) m (fun _ m' =>
    (exists r, mat_holds m' C r /\ forall i j, i < ext0 C -> j < ext1 C ->
       all_values (r i j) (tri_accurate (ext1 A) t d (ext1 A) i (B754_zero false) a (fun k => b k j))) /\
    changes_only m m' (mcells C)).
Proof.
  intros. eapply wp_conseq; [apply (@trmm_left_raw F) with (a := fun i j => exactly (a i j)) (b := fun i j => exactly (b i j)); eauto|]. intros [] m' [K1 K2]. split; auto.
  eexists; split; [exact K1|]. intros i j Hi Hj. apply (tri_elem_acc prec emax Hp He t d (ext1 A) a (fun k => b k j)). lia.
Qed.
Lemma trmm_right_fma : forall ty (m : mem F) B A t d C (a : nat -> nat -> fl) (b : nat -> nat -> fl),
  fits ty (ext1 C) ->
  ext0 A = ext1 A -> ext0 C = ext0 B -> ext1 B = ext0 A -> ext1 C = ext1 A ->
  mat_holds_on m A (stored t d) (fun i j => exactly (a i j)) -> mat_holds m B (fun i j => exactly (b i j)) -> mwritable C -> allocated m (mcells C) ->
  disjoint (mcells_on A (stored t d)) (mcells C) -> disjoint (mcells B) (mcells C) ->
  succeeds (triangular_matrix_product_right ty B A t d C) m (fun _ m' =>
    (exists r, mat_holds m' C r /\ forall i j, i < ext0 C -> j < ext1 C ->
       all_values (r i j) (tri_accurate_r (ext1 A) t d (ext1 A) j (B754_zero false) a (b i))) /\
    changes_only m m' (mcells C)).
Proof.
  intros. eapply wp_conseq; [apply (@trmm_right_raw F) with (a := fun i j => exactly (a i j)) (b := fun i j => exactly (b i j)); eauto|]. intros [] m' [K1 K2]. split; auto.
  eexists; split; [exact K1|]. intros i j Hi Hj. apply (tri_elem_acc_r t d (ext1 A) a (b i)). lia.
Qed.
Lemma ger_fma : forall (m : mem F) x y A (a : nat -> nat -> fl) (f : nat -> fl) (g : nat -> fl),
  vext x = ext0 A -> vext y = ext1 A ->
  mat_holds m A (fun i j => exactly (a i j)) -> vec_holds m x (fun i => exactly (f i)) -> vec_holds m y (fun i => exactly (g i)) -> mwritable A ->
  disjoint (vcells x) (mcells A) -> disjoint (vcells y) (mcells A) ->
  succeeds (matrix_rank_1_update x y A) m (fun _ m' =>
    (exists r, mat_holds m' A r /\ forall i j, i < ext0 A -> j < ext1 A ->
       all_values (r i j) (approximates 2 (is_finite (a i j) = true /\ is_finite (f i) = true /\ is_finite (g j) = true)
         (B2R (a i j) + B2R (f i) * B2R (g j))%R (Rabs (B2R (a i j)) + Rabs (B2R (f i)) * Rabs (B2R (g j)))%R eta)) /\
    changes_only m m' (mcells A)).
Proof.
  intros. eapply wp_conseq; [apply (@ger_ok F) with (a := fun i j => exactly (a i j)) (f := fun i => exactly (f i)) (g := fun i => exactly (g i)); eauto|]. intros [] m' [K1 K2]. split; auto.
  eexists; split; [exact K1|]. intros. apply upd1_acc.
Qed.
Lemma syr_fma : forall (m : mem F) x A t (a : nat -> nat -> fl) (f : nat -> fl),
  ext0 A = ext1 A -> vext x = ext0 A ->
  mat_holds_on m A (in_tri t) (fun i j => exactly (a i j)) -> vec_holds m x (fun i => exactly (f i)) -> mwritable_on A (in_tri t) ->
  disjoint (vcells x) (mcells_on A (in_tri t)) ->
  succeeds (symmetric_matrix_rank_1_update x A t) m (fun _ m' =>
    (exists r, mat_holds_on m' A (in_tri t) r /\ forall i j, i < ext0 A -> j < ext1 A -> in_tri t i j ->
       all_values (r i j) (approximates 2 (is_finite (a i j) = true /\ is_finite (f i) = true /\ is_finite (f j) = true)
         (B2R (a i j) + B2R (f i) * B2R (f j))%R (Rabs (B2R (a i j)) + Rabs (B2R (f i)) * Rabs (B2R (f j)))%R eta)) /\
    changes_only m m' (mcells_on A (in_tri t))).
Proof.
  intros. eapply wp_conseq; [apply (@syr_ok F) with (a := fun i j => exactly (a i j)) (f := fun i => exactly (f i)); eauto|]. intros [] m' [K1 K2]. split; auto.
  eexists; split; [exact K1|]. intros. apply upd1_acc.
Qed.
Lemma syr_alpha_fma : forall (m : mem F) (alpha : fl) x A t (a : nat -> nat -> fl) (f : nat -> fl),
  ext0 A = ext1 A -> vext x = ext0 A ->
  mat_holds_on m A (in_tri t) (fun i j => exactly (a i j)) -> vec_holds m x (fun i => exactly (f i)) -> mwritable_on A (in_tri t) ->
  disjoint (vcells x) (mcells_on A (in_tri t)) ->
  succeeds (symmetric_matrix_rank_1_update_alpha (exactly alpha : F) x A t) m (fun _ m' =>
    (exists r, mat_holds_on m' A (in_tri t) r /\ forall i j, i < ext0 A -> j < ext1 A -> in_tri t i j ->
       all_values (r i j) (approximates 3 (is_finite (a i j) = true /\ is_finite alpha = true /\ is_finite (f i) = true /\ is_finite (f j) = true /\
           is_finite (Bmult mode_NE alpha (f i)) = true)
         (B2R (a i j) + B2R alpha * B2R (f i) * B2R (f j))%R (Rabs (B2R (a i j)) + Rabs (B2R alpha) * Rabs (B2R (f i)) * Rabs (B2R (f j)))%R
         (eta * Rabs (B2R (f j)) + eta)%R)) /\
    changes_only m m' (mcells_on A (in_tri t))).
Proof.
  intros. eapply wp_conseq; [apply (@syr_alpha_ok F) with (a := fun i j => exactly (a i j)) (f := fun i => exactly (f i)); eauto|]. intros [] m' [K1 K2]. split; auto.
  eexists; split; [exact K1|]. intros. apply upd1a_acc.
Qed.
Lemma syr2_fma : forall (m : mem F) x y A t (a : nat -> nat -> fl) (f : nat -> fl) (g : nat -> fl),
  ext0 A = ext1 A -> vext x = ext0 A -> vext y = ext0 A ->
  mat_holds_on m A (in_tri t) (fun i j => exactly (a i j)) -> vec_holds m x (fun i => exactly (f i)) -> vec_holds m y (fun i => exactly (g i)) -> mwritable_on A (in_tri t) ->
  disjoint (vcells x) (mcells_on A (in_tri t)) -> disjoint (vcells y) (mcells_on A (in_tri t)) ->
  succeeds (symmetric_matrix_rank_2_update x y A t) m (fun _ m' =>
    (exists r, mat_holds_on m' A (in_tri t) r /\ forall i j, i < ext0 A -> j < ext1 A -> in_tri t i j ->
       all_values (r i j) (approximates 3 (is_finite (a i j) = true /\ is_finite (f i) = true /\ is_finite (g j) = true /\ is_finite (g i) = true /\ is_finite (f j) = true)
         (B2R (a i j) + (B2R (f i) * B2R (g j) + B2R (g i) * B2R (f j)))%R
         (Rabs (B2R (a i j)) + (Rabs (B2R (f i)) * Rabs (B2R (g j)) + Rabs (B2R (g i)) * Rabs (B2R (f j))))%R (2 * eta)%R)) /\
    changes_only m m' (mcells_on A (in_tri t))).
Proof.
  intros. eapply wp_conseq; [apply (@syr2_ok F) with (a := fun i j => exactly (a i j)) (f := fun i => exactly (f i)) (g := fun i => exactly (g i)); eauto|]. intros [] m' [K1 K2]. split; auto.
  eexists; split; [exact K1|]. intros. apply upd2_acc.
Qed.
Lemma syrk_fma : forall (m : mem F) A C t (a : nat -> nat -> fl) (c : nat -> nat -> fl),
  ext0 C = ext1 C -> ext0 A = ext0 C ->
  mat_holds m A (fun i j => exactly (a i j)) -> mat_holds_on m C (in_tri t) (fun i j => exactly (c i j)) -> mwritable_on C (in_tri t) ->
  disjoint (mcells A) (mcells_on C (in_tri t)) ->
  succeeds (symmetric_matrix_rank_k_update A C t) m (fun _ m' =>
    (exists r, mat_holds_on m' C (in_tri t) r /\ forall i j, i < ext0 C -> j < ext1 C -> in_tri t i j ->
       all_values (r i j) (dot_accurate (ext1 A + 1) (ext1 A) (c i j) (a i) (a j))) /\
    changes_only m m' (mcells_on C (in_tri t))).
Proof.
  intros. eapply wp_conseq; [apply (@syrk_ok F) with (a := fun i j => exactly (a i j)) (c := fun i j => exactly (c i j)); eauto|]. intros [] m' [K1 K2]. split; auto.
  eexists; split; [exact K1|]. intros i j _ _ _. exact (dot_acc (ext1 A) (c i j) (a i) (a j)).
Qed.
Lemma syrk_alpha_fma : forall (m : mem F) (alpha : fl) A C t (a : nat -> nat -> fl) (c : nat -> nat -> fl),
  ext0 C = ext1 C -> ext0 A = ext0 C ->
  mat_holds m A (fun i j => exactly (a i j)) -> mat_holds_on m C (in_tri t) (fun i j => exactly (c i j)) -> mwritable_on C (in_tri t) ->
  disjoint (mcells A) (mcells_on C (in_tri t)) ->
  succeeds (symmetric_matrix_rank_k_update_alpha (exactly alpha : F) A C t) m (fun _ m' =>
    (exists r, mat_holds_on m' C (in_tri t) r /\ forall i j, i < ext0 C -> j < ext1 C -> in_tri t i j ->
       all_values (r i j) (approximates (ext1 A + 2) (is_finite (c i j) = true /\ (0 < ext1 A -> is_finite alpha = true) /\ all_finite (ext1 A) (a i) /\ all_finite (ext1 A) (a j) /\
           all_finite (ext1 A) (fun k => Bmult mode_NE alpha (a i k)))
         (B2R (c i j) + rsum (ext1 A) (fun k => B2R alpha * B2R (a i k) * B2R (a j k)))%R
         (Rabs (B2R (c i j)) + rsum (ext1 A) (fun k => Rabs (B2R alpha) * Rabs (B2R (a i k)) * Rabs (B2R (a j k))))%R
         (rsum (ext1 A) (fun k => eta * Rabs (B2R (a j k)) + eta))%R)) /\
    changes_only m m' (mcells_on C (in_tri t))).
Proof.
  intros. eapply wp_conseq; [apply (@syrk_alpha_ok F) with (a := fun i j => exactly (a i j)) (c := fun i j => exactly (c i j)); eauto|]. intros [] m' [K1 K2]. split; auto.
  eexists; split; [exact K1|]. intros i j _ _ _. exact (updk_acc (ext1 A) (c i j) alpha (a i) (a j)).
Qed.
Lemma syr2k_fma : forall (m : mem F) A B C t (a : nat -> nat -> fl) (b : nat -> nat -> fl) (c : nat -> nat -> fl),
  ext0 C = ext1 C -> ext0 A = ext0 C -> ext0 B = ext0 C -> ext1 B = ext1 A ->
  mat_holds m A (fun i j => exactly (a i j)) -> mat_holds m B (fun i j => exactly (b i j)) -> mat_holds_on m C (in_tri t) (fun i j => exactly (c i j)) -> mwritable_on C (in_tri t) ->
  disjoint (mcells A) (mcells_on C (in_tri t)) -> disjoint (mcells B) (mcells_on C (in_tri t)) ->
  succeeds (symmetric_matrix_rank_2k_update A B C t) m (fun _ m' =>
    (exists r, mat_holds_on m' C (in_tri t) r /\ forall i j, i < ext0 C -> j < ext1 C -> in_tri t i j ->
       all_values (r i j) (approximates (ext1 A + 2) (is_finite (c i j) = true /\ all_finite (ext1 A) (a i) /\ all_finite (ext1 A) (b j) /\ all_finite (ext1 A) (b i) /\ all_finite (ext1 A) (a j))
         (B2R (c i j) + rsum (ext1 A) (fun k => B2R (a i k) * B2R (b j k) + B2R (b i k) * B2R (a j k)))%R
         (Rabs (B2R (c i j)) + rsum (ext1 A) (fun k => Rabs (B2R (a i k)) * Rabs (B2R (b j k)) + Rabs (B2R (b i k)) * Rabs (B2R (a j k))))%R
         (INR (ext1 A) * (2 * eta))%R)) /\
    changes_only m m' (mcells_on C (in_tri t))).
Proof.
  intros. eapply wp_conseq; [apply (@syr2k_ok F) with (a := fun i j => exactly (a i j)) (b := fun i j => exactly (b i j)) (c := fun i j => exactly (c i j)); eauto|]. intros [] m' [K1 K2]. split; auto.
  eexists; split; [exact K1|]. intros i j _ _ _. exact (upd2k_acc (ext1 A) (c i j) (a i) (b j) (b i) (a j)).
Qed.
End Float2.

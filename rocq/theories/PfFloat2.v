(** Floating-point error bounds of symmetric and triangular products and of rank updates. *)
From Coq Require Import List Arith ZArith Reals Lia Lra Psatz Bool.
From Flocq Require Import Core.Core IEEE754.BinarySingleNaN.
From Verif Require Import Mem Scalar View Spec SpecR SpecF SpecF2 Idx Wp Loops Sums Norm Ieee Blas1 Blas2 Blas3
  PfBlas1 PfBlas2 PfTrmv PfRank PfBlas3 PfIeee PfFloat PfApprox.

Section Tri.
Context (prec emax : Z) (Hp : Prec_gt_0 prec) (He : Prec_lt_emax prec emax).
Notation F := (ieee_ops prec emax Hp He).
Notation fl := (binary_float prec emax).
Notation eta := (half_tiny prec emax).
Local Open Scope R_scope.

Lemma rsum_ext : forall n f g, (forall k, (k < n)%nat -> f k = g k) -> rsum n f = rsum n g.
Proof. induction n; intros; simpl; auto. rewrite (IHn f g), H by (intros; apply H + idtac; lia); auto. Qed.
Lemma rsum_zero : forall n f, (forall k, (k < n)%nat -> f k = 0) -> rsum n f = 0.
Proof. induction n; intros; simpl; auto. rewrite IHn, H by (intros; apply H + idtac; lia). lra. Qed.
Lemma rsum_app : forall n p f, rsum (n + p) f = rsum n f + rsum p (fun k => f (n + k)%nat).
Proof.
  intros n p f. induction p; simpl; [rewrite Nat.add_0_r; lra|]. rewrite Nat.add_succ_r. cbn [rsum]. rewrite IHp. lra.
Qed.
Lemma sums_full : forall n lo len g, (lo + len <= n)%nat -> (forall k, (k < n)%nat -> ~ (lo <= k < lo + len)%nat -> g k = 0) ->
  rsum n g = sums lo len g.
Proof.
  intros n lo len g H Hz. unfold sums. replace n with (lo + (len + (n - lo - len)))%nat by lia.
  rewrite rsum_app, rsum_app. rewrite (rsum_zero lo) by (intros; apply Hz; lia).
  rewrite (rsum_zero (n - lo - len)) by (intros; apply Hz; lia). lra.
Qed.
Lemma rsum_const : forall n c, rsum n (fun _ => c) = INR n * c.
Proof. induction n; intros; [simpl; lra|]. cbn [rsum]. rewrite IHn, S_INR. lra. Qed.
Lemma sums_eta : forall lo len n, (len <= n)%nat -> sums lo len (fun _ => eta) <= INR n * eta.
Proof.
  intros. unfold sums. rewrite rsum_const. apply Rmult_le_compat_r; [pose proof (eta_pos prec emax); lra|]. apply le_INR; auto.
Qed.

Variables (t : triangle) (d : diagonal) (n : nat).
Variables (a : nat -> nat -> fl) (f : nat -> fl).

(** the indices of the triangle in row i *)
Definition row_lo (i : nat) : nat := match t with Lower => 0 | Upper => i end.
Definition row_len (i : nat) : nat := match t with Lower => i + 1 | Upper => n - i end.
Lemma row_in : forall i k, (i < n)%nat -> (row_lo i <= k < row_lo i + row_len i)%nat <-> (k < n)%nat /\ in_tri t i k.
Proof. intros. unfold row_lo, row_len, in_tri. destruct t; lia. Qed.
Lemma row_fits : forall i, (i < n)%nat -> (row_lo i + row_len i <= n)%nat.
Proof. intros. unfold row_lo, row_len. destruct t; lia. Qed.
Lemma rtri_out : forall i k, ~ in_tri t i k -> rtri t d a i k = 0.
Proof.
  intros i k H. unfold rtri, tri_of. destruct (Nat.eqb_spec i k) as [->|N].
  - exfalso. apply H. destruct t; simpl; lia.
  - unfold in_tri_b. destruct t; simpl in H |- *.
    + destruct (Nat.leb_spec k i); auto; lia.
    + destruct (Nat.leb_spec i k); auto; lia.
Qed.
Lemma rtri_stored : forall i k, stored t d i k -> rtri t d a i k = B2R (a i k).
Proof.
  intros i k [H N]. unfold rtri, tri_of. destruct (Nat.eqb_spec i k) as [->|Ne].
  - destruct d; auto. exfalso; apply N; auto.
  - unfold in_tri_b. destruct t; simpl in H |- *.
    + destruct (Nat.leb_spec k i); auto; lia.
    + destruct (Nat.leb_spec i k); auto; lia.
Qed.
Lemma rtri_unit : forall i, d = ImplicitUnit -> rtri t d a i i = 1.
Proof. intros i ->. unfold rtri, tri_of. rewrite Nat.eqb_refl. reflexivity. Qed.
Definition ok_at (i k : nat) : Prop := is_finite (f k) = true /\ (stored t d i k -> is_finite (a i k) = true).

Lemma tri_term_appr : forall i k, in_tri t i k ->
  appr prec emax 1 (ok_at i k) (rtri t d a i k * B2R (f k)) (Rabs (rtri t d a i k) * Rabs (B2R (f k))) eta (@tri_term F d a f i k).
Proof.
  intros i k H. unfold tri_term, ok_at. pose proof (eta_pos prec emax).
  assert (stored t d i k -> appr prec emax 1 (is_finite (f k) = true /\ (stored t d i k -> is_finite (a i k) = true))
    (rtri t d a i k * B2R (f k)) (Rabs (rtri t d a i k) * Rabs (B2R (f k))) eta (@mul F (a i k) (f k))) as K.
  { intros S. rewrite rtri_stored by auto. eapply appr_iff; [apply appr_prod|]. tauto. }
  destruct (Nat.eqb_spec i k) as [->|N]; [destruct d eqn:E|].
  - cbv iota. rewrite <- ?E in *. apply K. split; auto. congruence.
  - cbv iota. rewrite <- ?E in *. rewrite rtri_unit, Rabs_R1, !Rmult_1_l by auto.
    eapply appr_iff; [eapply appr_weaken; [apply appr_exact|lia|lra|lra]|].
    split; [|tauto]. intros; split; auto. intros [_ S]. exfalso; apply S; auto.
  - apply K. split; auto. 
Qed.
Lemma ok_row : forall i, (i < n)%nat ->
  (forall k, (row_lo i <= k < row_lo i + row_len i)%nat -> ok_at i k) <->
  ((forall k, (k < n)%nat -> in_tri t i k -> is_finite (f k) = true) /\ (forall k, (k < n)%nat -> stored t d i k -> is_finite (a i k) = true)).
Proof.
  intros i Hi. split.
  - intros H. split; intros k Hk K; apply (H k); auto; apply row_in; auto. split; auto. apply K.
  - intros [H1 H2] k Hk. apply row_in in Hk; auto. destruct Hk. split; [apply H1|apply H2]; auto.
Qed.
Lemma sums_row : forall i, (i < n)%nat ->
  sums (row_lo i) (row_len i) (fun k => rtri t d a i k * B2R (f k)) = rsum n (fun k => rtri t d a i k * B2R (f k)) /\
  sums (row_lo i) (row_len i) (fun k => Rabs (rtri t d a i k) * Rabs (B2R (f k))) = rsum n (fun k => Rabs (rtri t d a i k) * Rabs (B2R (f k))).
Proof.
  intros i Hi. split; symmetry; apply sums_full; auto using row_fits; intros k Hk N; rewrite rtri_out, ?Rabs_R0;
    try ring; intros T; apply N, row_in; auto.
Qed.
Lemma row_len_le : forall i, (i < n)%nat -> (row_len i <= n)%nat.
Proof. intros. pose proof (row_fits i). lia. Qed.

Lemma tri_row_val : forall (s : fl) i, @tri_row F s t d n a f i = @sum_from F s (row_lo i) (row_len i) (@tri_term F d a f i).
Proof. intros. unfold tri_row, row_lo, row_len. destruct t; auto. Qed.
Lemma tri_row_acc : forall (s : fl) i, (i < n)%nat -> tri_accurate (n + 1) t d n i s a f (@tri_row F s t d n a f i).
Proof.
  intros s i Hi. rewrite tri_row_val. apply (ap_spec prec emax). destruct (sums_row i Hi) as [<- <-].
  eapply appr_iff; [eapply appr_weaken; [eapply appr_sum with (E0 := 1%nat) (ok := ok_at i) (D := fun _ => eta)| | |]|].
  - intros k Hk. apply tri_term_appr. apply row_in in Hk; tauto.
  - pose proof (row_len_le i Hi). lia.
  - lra.
  - apply sums_eta, row_len_le; auto.
  - rewrite ok_row by auto. tauto.
Qed.
Lemma tri_row_acc0 : forall i, (i < n)%nat -> tri_accurate n t d n i (@zero F) a f (@tri_row F (@zero F) t d n a f i).
Proof.
  intros i Hi. rewrite tri_row_val. apply (ap_spec prec emax). destruct (sums_row i Hi) as [<- <-].
  change (B2R (@zero F)) with 0. rewrite Rabs_R0, !Rplus_0_l.
  eapply appr_iff; [eapply appr_weaken; [eapply appr_bigsum with (E0 := 1%nat) (ok := ok_at i) (D := fun _ => eta)| | |]|].
  - intros k Hk. apply tri_term_appr. apply row_in in Hk; tauto.
  - pose proof (row_len_le i Hi). assert (0 < row_len i)%nat by (unfold row_len; destruct t; lia). lia.
  - lra.
  - apply sums_eta, row_len_le; auto.
  - rewrite ok_row by auto. change (is_finite (@zero F : fl)) with true. tauto.
Qed.

(** the unit diagonal added last *)
Lemma tri_elem_gen : forall i (e : nat -> fl), (i < n)%nat ->
  (forall k, appr prec emax 1 (is_finite (a i k) = true /\ is_finite (f k) = true) (B2R (a i k) * B2R (f k)) (Rabs (B2R (a i k)) * Rabs (B2R (f k))) eta (e k)) ->
  tri_accurate n t d n i (@zero F) a f (@tri_elem F (is_lower t) d n i e (f i)).
Proof.
  intros i e Hi Hte. destruct d eqn:Ed.
  - rewrite <- Ed. apply (ap_spec prec emax). destruct (sums_row i Hi) as [<- <-].
    change (B2R (@zero F)) with 0. rewrite Rabs_R0, !Rplus_0_l.
    replace (@tri_elem F (is_lower t) d n i e (f i)) with (@sum_from F (@zero F) (row_lo i) (row_len i) e)
      by (rewrite Ed; unfold tri_elem, row_lo, row_len; destruct t; cbn [is_lower is_explicit]; rewrite ?Nat.sub_0_r; auto).
    eapply appr_iff; [eapply appr_weaken; [eapply appr_bigsum with (E0 := 1%nat) (ok := ok_at i) (x := fun k => rtri t d a i k * B2R (f k)) (M := fun k => Rabs (rtri t d a i k) * Rabs (B2R (f k))) (D := fun _ => eta)| | |]|].
    + intros k Hk. apply row_in in Hk; auto. assert (S : stored t d i k) by (split; [tauto|congruence]).
      rewrite rtri_stored by auto. eapply appr_iff; [apply Hte|]. unfold ok_at. tauto.
    + pose proof (row_len_le i Hi). assert (0 < row_len i)%nat by (unfold row_len; destruct t; lia). lia.
    + lra.
    + apply sums_eta, row_len_le; auto.
    + rewrite ok_row by auto. change (is_finite (@zero F : fl)) with true. tauto.
  - rewrite <- Ed at 1. apply (ap_spec prec emax). destruct (sums_row i Hi) as [<- <-].
    change (B2R (@zero F)) with 0. rewrite Rabs_R0, !Rplus_0_l. rewrite Ed.
    set (lo := if is_lower t then 0%nat else (i + 1)%nat). set (len := ((if is_lower t then i else n) - lo)%nat).
    change (@tri_elem F (is_lower t) ImplicitUnit n i e (f i))
      with (Bplus mode_NE (@sum_from F (@zero F) lo len e) (f i : fl)).
    assert (HR : forall k, (lo <= k < lo + len)%nat <-> (k < n)%nat /\ stored t d i k).
    { intros k. unfold len, lo, stored. rewrite Ed. destruct t; simpl.
      - split; [intros K; split; [lia|split; [lia|intros _; lia]]|]. intros (K1 & K2 & N). specialize (N eq_refl).
  lia.
      - split; [intros K; split; [lia|split; [lia|intros _; lia]]|]. intros (K1 & K2 & N). specialize (N eq_refl). lia. }
    assert (HS : forall g, sums (row_lo i) (row_len i) g = sums lo len g + g i).
    { intros g. unfold sums, row_lo, row_len, len, lo. destruct t; simpl is_lower; cbv iota.
      - rewrite Nat.sub_0_r, Nat.add_1_r. simpl. auto.
      - replace (n - i)%nat with (1 + (n - (i + 1)))%nat by lia. rewrite rsum_app. simpl. rewrite Nat.add_0_r.
        rewrite (rsum_ext _ (fun k => g (i + Datatypes.S k)%nat) (fun k => g (i + 1 + k)%nat)) by (intros; f_equal; lia). lra. }
    rewrite !HS. rewrite <- Ed, (rtri_unit i Ed), Rabs_R1, !Rmult_1_l.
    assert (A1 : appr prec emax (1 + Nat.pred len) (forall k, (lo <= k < lo + len)%nat -> ok_at i k)
      (sums lo len (fun k => rtri t d a i k * B2R (f k))) (sums lo len (fun k => Rabs (rtri t d a i k) * Rabs (B2R (f k)))) (sums lo len (fun _ => eta))
      (@sum_from F (@zero F) lo len e)).
    { apply appr_bigsum. intros k Hk. apply HR in Hk. destruct Hk as [Hk Hs]. rewrite rtri_stored by auto.
      eapply appr_iff; [apply Hte|]. unfold ok_at. tauto. }
    assert (LL : (len + 1 <= n)%nat) by (unfold len, lo; destruct t; simpl; lia).
    assert (A2 : appr prec emax n ((forall k, (lo <= k < lo + len)%nat -> ok_at i k) /\ is_finite (f i) = true)
      (sums lo len (fun k => rtri t d a i k * B2R (f k)) + B2R (f i)) (sums lo len (fun k => Rabs (rtri t d a i k) * Rabs (B2R (f k))) + Rabs (B2R (f i)))
      (INR n * eta) (Bplus mode_NE (@sum_from F (@zero F) lo len e) (f i : fl))).
    { assert (0 <= INR n * eta) by (apply Rmult_le_pos; [apply pos_INR|pose proof (eta_pos prec emax); lra]).
      clearbody len. destruct len as [|len'].
      - unfold sums. simpl rsum. rewrite !Rplus_0_l. change (@sum_from F (@zero F) lo 0 _) with (B754_zero false : fl).
        eapply appr_iff; [eapply appr_weaken; [apply appr_plus_zero, appr_exact|lia|lra|lra]|].
        split; [intros; split; auto; intros; lia|tauto].
      - eapply appr_weaken; [eapply appr_plus; [exact A1|eapply appr_weaken with (D' := 0); [apply appr_exact|lia|apply Rle_refl|lra]]|simpl; lia|lra|].
        rewrite Rplus_0_r. apply sums_eta. lia. }
    eapply appr_iff; [exact A2|]. rewrite <- ok_row by auto. split.
    + intros [K1 K2]. split; auto. intros k Hk. apply row_in in Hk; auto.
      destruct (Nat.eq_dec i k) as [<-|N]; [split; auto; intros [_ S]; exfalso; apply S; auto|].
      apply K1, HR. split; [tauto|]. split; [tauto|auto].
    + intros [_ K]. split; [|apply (K i); apply row_in; auto; split; auto; destruct t; simpl; lia].
      intros k Hk. apply K. apply row_in; auto. apply HR in Hk. unfold stored in Hk. tauto.
Qed.
Lemma tri_elem_acc : forall i, (i < n)%nat ->
  tri_accurate n t d n i (@zero F) a f (@tri_elem F (is_lower t) d n i (fun k => @mul F (a i k) (f k)) (f i)).
Proof. intros. apply tri_elem_gen; auto. intros; apply appr_prod. Qed.
End Tri.

Section Float2.
Context (prec emax : Z) (Hp : Prec_gt_0 prec) (He : Prec_lt_emax prec emax).
Notation F := (ieee_ops prec emax Hp He).
Notation fl := (binary_float prec emax).
Notation eta := (half_tiny prec emax).
Local Open Scope nat_scope.

Lemma tri_elem_acc_r : forall t d n (a : nat -> nat -> F) (f : nat -> F) j, j < n ->
  tri_accurate_r n t d n j (@zero F) a f (@tri_elem F (negb (is_lower t)) d n j (fun k => @mul F (f k) (a k j)) (f j)).
Proof.
  intros t d n a f j Hj.
  assert (K : tri_accurate n (flip t) d n j (@zero F) (fun i j => a j i) f
    (@tri_elem F (is_lower (flip t)) d n j (fun k => @mul F (f k) (a k j)) (f j))).
  { apply tri_elem_gen; auto. intros k. rewrite (Rmult_comm (B2R (a k j))), (Rmult_comm (Rabs (B2R (a k j)))).
    eapply appr_iff; [apply appr_prod|]. tauto. }
  replace (negb (is_lower t)) with (is_lower (flip t)) by (destruct t; auto).
  unfold tri_accurate in K. unfold tri_accurate_r.
  assert (RF : forall k, rtri (flip t) d (fun i j => a j i) j k = rtri t d a k j) by (intros; unfold rtri; apply (@tri_of_flip real_ops)).
  rewrite (rsum_ext n (fun k => (rtri (flip t) d (fun i j => a j i) j k * B2R (f k))%R) (fun k => (B2R (f k) * rtri t d a k j)%R)) in K by (intros; rewrite RF; apply Rmult_comm).
  rewrite (rsum_ext n (fun k => (Rabs (rtri (flip t) d (fun i j => a j i) j k) * Rabs (B2R (f k)))%R) (fun k => (Rabs (B2R (f k)) * Rabs (rtri t d a k j))%R)) in K by (intros; rewrite RF; apply Rmult_comm).
  assert (IT : forall k, in_tri (flip t) j k <-> in_tri t k j) by (intros; destruct t; simpl; tauto).
  assert (ST : forall k, stored (flip t) d j k <-> stored t d k j) by (intros; unfold stored; rewrite IT; intuition congruence).
  destruct K as [K1 K2]. split.
  - intros H. destruct (K1 H) as [(Q1 & Q2 & Q3) Q4]. split; auto. split; auto. split; intros k Hk Hs.
    + apply Q2; auto. apply IT; auto. + apply Q3; auto. apply ST; auto.
  - intros (Q1 & Q2 & Q3) Q4. apply K2; auto. split; auto. split; intros k Hk Hs.
    + apply Q2; auto. apply IT; auto. + apply Q3; auto. apply ST; auto.
Qed.

(** symmetric products *)
Lemma symv_float : forall (m : mem F) A t x y a f,
  ext0 A = ext1 A -> vext x = ext1 A -> vext y = ext0 A ->
  mat_holds_on m A (in_tri t) a -> vec_holds m x f -> vwritable y -> allocated m (vcells y) ->
  disjoint (mcells_on A (in_tri t)) (vcells y) -> disjoint (vcells x) (vcells y) ->
  succeeds (symmetric_matrix_vector_product A t x y) m (fun _ m' =>
    (exists r, vec_holds m' y r /\ forall i, i < vext y -> accurate (ext1 A) (ext1 A) (@zero F) (@sym_of F t a i) f (r i)) /\
    changes_only m m' (vcells y)).
Proof.
  intros. eapply wp_conseq; [apply (@symv_ok F); eauto|]. intros [] m' [K1 K2]. split; auto.
  eexists; split; [exact K1|]. intros. apply accurate_bigsum.
Qed.
Lemma symv_upd_float : forall (m : mem F) A t x y z a f g,
  ext0 A = ext1 A -> vext x = ext1 A -> vext y = ext0 A -> vext z = ext0 A ->
  mat_holds_on m A (in_tri t) a -> vec_holds m x f -> vec_holds m y g -> vwritable z -> allocated m (vcells z) ->
  disjoint (mcells_on A (in_tri t)) (vcells z) -> disjoint (vcells x) (vcells z) -> disjoint_or_aligned_v y z ->
  succeeds (symmetric_matrix_vector_product_upd A t x y z) m (fun _ m' =>
    (exists r, vec_holds m' z r /\ forall i, i < vext z -> accurate (ext1 A + 1) (ext1 A) (g i) (@sym_of F t a i) f (r i)) /\
    changes_only m m' (vcells z)).
Proof.
  intros. eapply wp_conseq; [apply (@symv_upd_ok F) with (g := g); eauto|]. intros [] m' [K1 K2]. split; auto.
  eexists; split; [exact K1|]. intros. apply accurate_sum.
Qed.
Lemma symm_left_float : forall (m : mem F) A t B C a b,
  ext0 A = ext1 A -> ext0 C = ext0 A -> ext1 A = ext0 B -> ext1 C = ext1 B ->
  mat_holds_on m A (in_tri t) a -> mat_holds m B b -> mwritable C -> allocated m (mcells C) ->
  disjoint (mcells_on A (in_tri t)) (mcells C) -> disjoint (mcells B) (mcells C) ->
  succeeds (symmetric_matrix_product_left A t B C) m (fun _ m' =>
    (exists r, mat_holds m' C r /\ forall i j, i < ext0 C -> j < ext1 C ->
       accurate (ext1 A) (ext1 A) (@zero F) (@sym_of F t a i) (fun k => b k j) (r i j)) /\
    changes_only m m' (mcells C)).
Proof.
  intros. eapply wp_conseq; [apply (@symm_left_ok F); eauto|]. intros [] m' [K1 K2]. split; auto.
  eexists; split; [exact K1|]. intros i j Hi Hj. exact (accurate_bigsum prec emax Hp He (ext1 A) (@sym_of F t a i) (fun k => b k j)).
Qed.
Lemma symm_right_float : forall (m : mem F) B A t C a b,
  ext0 A = ext1 A -> ext0 C = ext0 B -> ext1 B = ext0 A -> ext1 C = ext1 A ->
  mat_holds_on m A (in_tri t) a -> mat_holds m B b -> mwritable C -> allocated m (mcells C) ->
  disjoint (mcells_on A (in_tri t)) (mcells C) -> disjoint (mcells B) (mcells C) ->
  succeeds (symmetric_matrix_product_right B A t C) m (fun _ m' =>
    (exists r, mat_holds m' C r /\ forall i j, i < ext0 C -> j < ext1 C ->
       accurate (ext1 A) (ext1 A) (@zero F) (b i) (fun k => @sym_of F t a k j) (r i j)) /\
    changes_only m m' (mcells C)).
Proof.
  intros. eapply wp_conseq; [apply (@symm_right_ok F); eauto|]. intros [] m' [K1 K2]. split; auto.
  eexists; split; [exact K1|]. intros i j Hi Hj. exact (accurate_bigsum prec emax Hp He (ext1 A) (b i) (fun k => @sym_of F t a k j)).
Qed.

(** triangular products *)
Lemma trmv_float : forall (m : mem F) A t d x y a f,
  ext0 A = ext1 A -> vext x = ext1 A -> vext y = ext0 A ->
  mat_holds_on m A (stored t d) a -> vec_holds m x f -> vwritable y -> allocated m (vcells y) ->
  disjoint (mcells_on A (stored t d)) (vcells y) -> disjoint (vcells x) (vcells y) ->
  succeeds (triangular_matrix_vector_product A t d x y) m (fun _ m' =>
    (exists r, vec_holds m' y r /\ forall i, i < vext y -> tri_accurate (ext1 A) t d (ext1 A) i (@zero F) a f (r i)) /\
    changes_only m m' (vcells y)).
Proof.
  intros. eapply wp_conseq; [apply (@trmv_ok F); eauto|]. intros [] m' [K1 K2]. split; auto.
  eexists; split; [exact K1|]. intros. apply tri_row_acc0. lia.
Qed.
Lemma trmv_upd_float : forall (m : mem F) A t d x y z a f g,
  ext0 A = ext1 A -> vext x = ext1 A -> vext y = ext0 A -> vext z = ext0 A ->
  mat_holds_on m A (stored t d) a -> vec_holds m x f -> vec_holds m y g -> vwritable z -> allocated m (vcells z) ->
  disjoint (mcells_on A (stored t d)) (vcells z) -> disjoint (vcells x) (vcells z) -> disjoint_or_aligned_v y z ->
  succeeds (triangular_matrix_vector_product_upd A t d x y z) m (fun _ m' =>
    (exists r, vec_holds m' z r /\ forall i, i < vext z -> tri_accurate (ext1 A + 1) t d (ext1 A) i (g i) a f (r i)) /\
    changes_only m m' (vcells z)).
Proof.
  intros. eapply wp_conseq; [apply (@trmv_upd_ok F) with (g := g); eauto|]. intros [] m' [K1 K2]. split; auto.
  eexists; split; [exact K1|]. intros. apply tri_row_acc. lia.
Qed.
Lemma trmm_left_float : forall ty (m : mem F) A t d B C a b,
  fits ty (ext0 C) ->
  ext0 A = ext1 A -> ext0 C = ext0 A -> ext1 A = ext0 B -> ext1 C = ext1 B ->
  mat_holds_on m A (stored t d) a -> mat_holds m B b -> mwritable C -> allocated m (mcells C) ->
  disjoint (mcells_on A (stored t d)) (mcells C) -> disjoint (mcells B) (mcells C) ->
  succeeds (triangular_matrix_product_left ty A t d B C) m (fun _ m' =>
    (exists r, mat_holds m' C r /\ forall i j, i < ext0 C -> j < ext1 C ->
       tri_accurate (ext1 A) t d (ext1 A) i (@zero F) a (fun k => b k j) (r i j)) /\
    changes_only m m' (mcells C)).
Proof.
  intros. eapply wp_conseq; [apply (@trmm_left_raw F); eauto|]. intros [] m' [K1 K2]. split; auto.
  eexists; split; [exact K1|]. intros i j Hi Hj. apply (tri_elem_acc prec emax Hp He t d (ext1 A) a (fun k => b k j)). lia.
Qed.
Lemma trmm_right_float : forall ty (m : mem F) B A t d C a b,
  fits ty (ext1 C) ->
  ext0 A = ext1 A -> ext0 C = ext0 B -> ext1 B = ext0 A -> ext1 C = ext1 A ->
  mat_holds_on m A (stored t d) a -> mat_holds m B b -> mwritable C -> allocated m (mcells C) ->
  disjoint (mcells_on A (stored t d)) (mcells C) -> disjoint (mcells B) (mcells C) ->
  succeeds (triangular_matrix_product_right ty B A t d C) m (fun _ m' =>
    (exists r, mat_holds m' C r /\ forall i j, i < ext0 C -> j < ext1 C ->
       tri_accurate_r (ext1 A) t d (ext1 A) j (@zero F) a (b i) (r i j)) /\
    changes_only m m' (mcells C)).
Proof.
  intros. eapply wp_conseq; [apply (@trmm_right_raw F); eauto|]. intros [] m' [K1 K2]. split; auto.
  eexists; split; [exact K1|]. intros i j Hi Hj. apply (tri_elem_acc_r t d (ext1 A) a (b i)). lia.
Qed.

(** rank updates *)
Local Open Scope R_scope.
Lemma upd1_acc : forall c x y : fl,
  approximates 2 (is_finite c = true /\ is_finite x = true /\ is_finite y = true) (B2R c + B2R x * B2R y)
    (Rabs (B2R c) + Rabs (B2R x) * Rabs (B2R y)) eta (Bplus mode_NE c (Bmult mode_NE x y)).
Proof.
  intros. eapply ap_spec; auto.
  pose proof (appr_plus prec emax Hp He _ _ _ _ _ _ _ _ _ _ _ (appr_weaken prec emax 0 1 _ _ _ _ _ _ _ (appr_exact prec emax c) ltac:(lia) (Rle_refl _) (Rle_refl _)) (appr_prod prec emax Hp He x y)) as K.
  rewrite Rplus_0_l in K. exact K.
Qed.
Lemma upd1a_acc : forall c alpha x y : fl,
  approximates 3 (is_finite c = true /\ is_finite alpha = true /\ is_finite x = true /\ is_finite y = true /\ is_finite (Bmult mode_NE alpha x) = true)
    (B2R c + B2R alpha * B2R x * B2R y)
    (Rabs (B2R c) + Rabs (B2R alpha) * Rabs (B2R x) * Rabs (B2R y)) (eta * Rabs (B2R y) + eta) (Bplus mode_NE c (Bmult mode_NE (Bmult mode_NE alpha x) y)).
Proof.
  intros. eapply ap_spec; auto.
  pose proof (appr_plus prec emax Hp He _ _ _ _ _ _ _ _ _ _ _ (appr_weaken prec emax 0 2 _ _ _ _ _ _ _ (appr_exact prec emax c) ltac:(lia) (Rle_refl _) (Rle_refl _)) (appr_mult prec emax Hp He _ _ _ _ _ _ y (appr_prod prec emax Hp He alpha x))) as K.
  rewrite Rplus_0_l in K. eapply appr_iff; [exact K|]. tauto.
Qed.
Lemma two_acc : forall x y z w : fl,
  appr prec emax 2 (is_finite x = true /\ is_finite y = true /\ is_finite z = true /\ is_finite w = true)
    (B2R x * B2R y + B2R z * B2R w) (Rabs (B2R x) * Rabs (B2R y) + Rabs (B2R z) * Rabs (B2R w)) (2 * eta)
    (Bplus mode_NE (Bmult mode_NE x y) (Bmult mode_NE z w)).
Proof.
  intros. pose proof (appr_plus prec emax Hp He _ _ _ _ _ _ _ _ _ _ _ (appr_prod prec emax Hp He x y) (appr_prod prec emax Hp He z w)) as K.
  replace (eta + eta) with (2 * eta) in K by ring. eapply appr_iff; [exact K|]. tauto.
Qed.
Lemma upd2_acc : forall c x y z w : fl,
  approximates 3 (is_finite c = true /\ is_finite x = true /\ is_finite y = true /\ is_finite z = true /\ is_finite w = true)
    (B2R c + (B2R x * B2R y + B2R z * B2R w)) (Rabs (B2R c) + (Rabs (B2R x) * Rabs (B2R y) + Rabs (B2R z) * Rabs (B2R w))) (2 * eta)
    (Bplus mode_NE c (Bplus mode_NE (Bmult mode_NE x y) (Bmult mode_NE z w))).
Proof.
  intros. eapply ap_spec; auto.
  pose proof (appr_plus prec emax Hp He _ _ _ _ _ _ _ _ _ _ _ (appr_weaken prec emax 0 2 _ _ _ _ _ _ _ (appr_exact prec emax c) ltac:(lia) (Rle_refl _) (Rle_refl _)) (two_acc x y z w)) as K.
  rewrite Rplus_0_l in K. exact K.
Qed.
Lemma sums_0 : forall n f, sums 0 n f = rsum n f.
Proof. reflexivity. Qed.
Lemma updk_acc : forall n (c alpha : fl) (x y : nat -> fl),
  approximates (n + 2) (is_finite c = true /\ (0 < n -> is_finite alpha = true)%nat /\ all_finite n x /\ all_finite n y /\ all_finite n (fun k => Bmult mode_NE alpha (x k)))
    (B2R c + rsum n (fun k => B2R alpha * B2R (x k) * B2R (y k)))
    (Rabs (B2R c) + rsum n (fun k => Rabs (B2R alpha) * Rabs (B2R (x k)) * Rabs (B2R (y k))))
    (rsum n (fun k => eta * Rabs (B2R (y k)) + eta))
    (@sum_from F c 0 n (fun k => @mul F (@mul F alpha (x k)) (y k))).
Proof.
  intros. eapply ap_spec; auto. rewrite Nat.add_comm. eapply appr_iff.
  { apply (appr_sum prec emax Hp He 2 _
      (fun k => is_finite (Bmult mode_NE alpha (x k)) = true /\ (is_finite alpha = true /\ is_finite (x k) = true) /\ is_finite (y k) = true)
      (fun k => B2R alpha * B2R (x k) * B2R (y k)) (fun k => Rabs (B2R alpha) * Rabs (B2R (x k)) * Rabs (B2R (y k)))
      (fun k => eta * Rabs (B2R (y k)) + eta) 0 n c).
    intros k _. apply (appr_mult prec emax Hp He _ _ _ _ _ _ (y k) (appr_prod prec emax Hp He alpha (x k))). }
  split.
  - intros (K1 & K2). split; auto. split; [intros Hn; apply (K2 0%nat); lia|]. repeat split; intros k Hk; apply (K2 k); lia.
  - intros (K1 & K2 & K3 & K4 & K5). split; auto. intros k Hk. assert (k < n)%nat by lia. repeat split; auto; apply K2; lia.
Qed.
Lemma upd2k_acc : forall n (c : fl) (x y z w : nat -> fl),
  approximates (n + 2) (is_finite c = true /\ all_finite n x /\ all_finite n y /\ all_finite n z /\ all_finite n w)
    (B2R c + rsum n (fun k => B2R (x k) * B2R (y k) + B2R (z k) * B2R (w k)))
    (Rabs (B2R c) + rsum n (fun k => Rabs (B2R (x k)) * Rabs (B2R (y k)) + Rabs (B2R (z k)) * Rabs (B2R (w k))))
    (INR n * (2 * eta))
    (@sum_from F c 0 n (fun k => @add F (@mul F (x k) (y k)) (@mul F (z k) (w k)))).
Proof.
  intros. eapply ap_spec; auto. rewrite Nat.add_comm. rewrite <- (rsum_const n (2 * eta)). eapply appr_iff.
  { apply (appr_sum prec emax Hp He 2 _
      (fun k => is_finite (x k) = true /\ is_finite (y k) = true /\ is_finite (z k) = true /\ is_finite (w k) = true)
      (fun k => B2R (x k) * B2R (y k) + B2R (z k) * B2R (w k))
      (fun k => Rabs (B2R (x k)) * Rabs (B2R (y k)) + Rabs (B2R (z k)) * Rabs (B2R (w k)))
      (fun k => 2 * eta) 0 n c).
    intros k _. apply two_acc. }
  split.
  - intros (K1 & K2). split; auto. repeat split; intros k Hk; apply (K2 k); lia.
  - intros (K1 & K2 & K3 & K4 & K5). split; auto. intros k Hk. assert (k < n)%nat by lia. repeat split; auto.
Qed.
Local Open Scope nat_scope.

Lemma ger_float : forall (m : mem F) x y A a f g,
  vext x = ext0 A -> vext y = ext1 A ->
  mat_holds m A a -> vec_holds m x f -> vec_holds m y g -> mwritable A ->
  disjoint (vcells x) (mcells A) -> disjoint (vcells y) (mcells A) ->
  succeeds (matrix_rank_1_update x y A) m (fun _ m' =>
    (exists r, mat_holds m' A r /\ forall i j, i < ext0 A -> j < ext1 A ->
       approximates 2 (is_finite (a i j) = true /\ is_finite (f i) = true /\ is_finite (g j) = true)
         (B2R (a i j) + B2R (f i) * B2R (g j))%R (Rabs (B2R (a i j)) + Rabs (B2R (f i)) * Rabs (B2R (g j)))%R eta (r i j)) /\
    changes_only m m' (mcells A)).
Proof.
  intros. eapply wp_conseq; [apply (@ger_ok F); eauto|]. intros [] m' [K1 K2]. split; auto.
  eexists; split; [exact K1|]. intros. apply upd1_acc.
Qed.
Lemma syr_float : forall (m : mem F) x A t a f,
  ext0 A = ext1 A -> vext x = ext0 A ->
  mat_holds_on m A (in_tri t) a -> vec_holds m x f -> mwritable_on A (in_tri t) ->
  disjoint (vcells x) (mcells_on A (in_tri t)) ->
  succeeds (symmetric_matrix_rank_1_update x A t) m (fun _ m' =>
    (exists r, mat_holds_on m' A (in_tri t) r /\ forall i j, i < ext0 A -> j < ext1 A -> in_tri t i j ->
       approximates 2 (is_finite (a i j) = true /\ is_finite (f i) = true /\ is_finite (f j) = true)
         (B2R (a i j) + B2R (f i) * B2R (f j))%R (Rabs (B2R (a i j)) + Rabs (B2R (f i)) * Rabs (B2R (f j)))%R eta (r i j)) /\
    changes_only m m' (mcells_on A (in_tri t))).
Proof.
  intros. eapply wp_conseq; [apply (@syr_ok F); eauto|]. intros [] m' [K1 K2]. split; auto.
  eexists; split; [exact K1|]. intros. apply upd1_acc.
Qed.
Lemma syr_alpha_float : forall (m : mem F) (alpha : F) x A t a f,
  ext0 A = ext1 A -> vext x = ext0 A ->
  mat_holds_on m A (in_tri t) a -> vec_holds m x f -> mwritable_on A (in_tri t) ->
  disjoint (vcells x) (mcells_on A (in_tri t)) ->
  succeeds (symmetric_matrix_rank_1_update_alpha alpha x A t) m (fun _ m' =>
    (exists r, mat_holds_on m' A (in_tri t) r /\ forall i j, i < ext0 A -> j < ext1 A -> in_tri t i j ->
       approximates 3 (is_finite (a i j) = true /\ is_finite alpha = true /\ is_finite (f i) = true /\ is_finite (f j) = true /\
           is_finite (@mul F alpha (f i)) = true)
         (B2R (a i j) + B2R alpha * B2R (f i) * B2R (f j))%R (Rabs (B2R (a i j)) + Rabs (B2R alpha) * Rabs (B2R (f i)) * Rabs (B2R (f j)))%R
         (eta * Rabs (B2R (f j)) + eta)%R (r i j)) /\
    changes_only m m' (mcells_on A (in_tri t))).
Proof.
  intros. eapply wp_conseq; [apply (@syr_alpha_ok F); eauto|]. intros [] m' [K1 K2]. split; auto.
  eexists; split; [exact K1|]. intros. apply upd1a_acc.
Qed.
Lemma syr2_float : forall (m : mem F) x y A t a f g,
  ext0 A = ext1 A -> vext x = ext0 A -> vext y = ext0 A ->
  mat_holds_on m A (in_tri t) a -> vec_holds m x f -> vec_holds m y g -> mwritable_on A (in_tri t) ->
  disjoint (vcells x) (mcells_on A (in_tri t)) -> disjoint (vcells y) (mcells_on A (in_tri t)) ->
  succeeds (symmetric_matrix_rank_2_update x y A t) m (fun _ m' =>
    (exists r, mat_holds_on m' A (in_tri t) r /\ forall i j, i < ext0 A -> j < ext1 A -> in_tri t i j ->
       approximates 3 (is_finite (a i j) = true /\ is_finite (f i) = true /\ is_finite (g j) = true /\ is_finite (g i) = true /\ is_finite (f j) = true)
         (B2R (a i j) + (B2R (f i) * B2R (g j) + B2R (g i) * B2R (f j)))%R
         (Rabs (B2R (a i j)) + (Rabs (B2R (f i)) * Rabs (B2R (g j)) + Rabs (B2R (g i)) * Rabs (B2R (f j))))%R (2 * eta)%R (r i j)) /\
    changes_only m m' (mcells_on A (in_tri t))).
Proof.
  intros. eapply wp_conseq; [apply (@syr2_ok F); eauto|]. intros [] m' [K1 K2]. split; auto.
  eexists; split; [exact K1|]. intros. apply upd2_acc.
Qed.
Lemma syrk_float : forall (m : mem F) A C t a c,
  ext0 C = ext1 C -> ext0 A = ext0 C ->
  mat_holds m A a -> mat_holds_on m C (in_tri t) c -> mwritable_on C (in_tri t) ->
  disjoint (mcells A) (mcells_on C (in_tri t)) ->
  succeeds (symmetric_matrix_rank_k_update A C t) m (fun _ m' =>
    (exists r, mat_holds_on m' C (in_tri t) r /\ forall i j, i < ext0 C -> j < ext1 C -> in_tri t i j ->
       accurate (ext1 A + 1) (ext1 A) (c i j) (a i) (a j) (r i j)) /\
    changes_only m m' (mcells_on C (in_tri t))).
Proof.
  intros. eapply wp_conseq; [apply (@syrk_ok F) with (c := c); eauto|]. intros [] m' [K1 K2]. split; auto.
  eexists; split; [exact K1|]. intros i j _ _ _. exact (accurate_sum prec emax Hp He (ext1 A) (c i j) (a i) (a j)).
Qed.
Lemma syrk_alpha_float : forall (m : mem F) (alpha : F) A C t a c,
  ext0 C = ext1 C -> ext0 A = ext0 C ->
  mat_holds m A a -> mat_holds_on m C (in_tri t) c -> mwritable_on C (in_tri t) ->
  disjoint (mcells A) (mcells_on C (in_tri t)) ->
  succeeds (symmetric_matrix_rank_k_update_alpha alpha A C t) m (fun _ m' =>
    (exists r, mat_holds_on m' C (in_tri t) r /\ forall i j, i < ext0 C -> j < ext1 C -> in_tri t i j ->
       approximates (ext1 A + 2) (is_finite (c i j) = true /\ (0 < ext1 A -> is_finite alpha = true) /\ all_finite (ext1 A) (a i) /\ all_finite (ext1 A) (a j) /\
           all_finite (ext1 A) (fun k => @mul F alpha (a i k)))
         (B2R (c i j) + rsum (ext1 A) (fun k => B2R alpha * B2R (a i k) * B2R (a j k)))%R
         (Rabs (B2R (c i j)) + rsum (ext1 A) (fun k => Rabs (B2R alpha) * Rabs (B2R (a i k)) * Rabs (B2R (a j k))))%R
         (rsum (ext1 A) (fun k => eta * Rabs (B2R (a j k)) + eta))%R (r i j)) /\
    changes_only m m' (mcells_on C (in_tri t))).
Proof.
  intros. eapply wp_conseq; [apply (@syrk_alpha_ok F) with (c := c); eauto|]. intros [] m' [K1 K2]. split; auto.
  eexists; split; [exact K1|]. intros i j _ _ _. exact (updk_acc (ext1 A) (c i j) alpha (a i) (a j)).
Qed.
Lemma syr2k_float : forall (m : mem F) A B C t a b c,
  ext0 C = ext1 C -> ext0 A = ext0 C -> ext0 B = ext0 C -> ext1 B = ext1 A ->
  mat_holds m A a -> mat_holds m B b -> mat_holds_on m C (in_tri t) c -> mwritable_on C (in_tri t) ->
  disjoint (mcells A) (mcells_on C (in_tri t)) -> disjoint (mcells B) (mcells_on C (in_tri t)) ->
  succeeds (symmetric_matrix_rank_2k_update A B C t) m (fun _ m' =>
    (exists r, mat_holds_on m' C (in_tri t) r /\ forall i j, i < ext0 C -> j < ext1 C -> in_tri t i j ->
       approximates (ext1 A + 2) (is_finite (c i j) = true /\ all_finite (ext1 A) (a i) /\ all_finite (ext1 A) (b j) /\ all_finite (ext1 A) (b i) /\ all_finite (ext1 A) (a j))
         (B2R (c i j) + rsum (ext1 A) (fun k => B2R (a i k) * B2R (b j k) + B2R (b i k) * B2R (a j k)))%R
         (Rabs (B2R (c i j)) + rsum (ext1 A) (fun k => Rabs (B2R (a i k)) * Rabs (B2R (b j k)) + Rabs (B2R (b i k)) * Rabs (B2R (a j k))))%R
         (INR (ext1 A) * (2 * eta))%R (r i j)) /\
    changes_only m m' (mcells_on C (in_tri t))).
Proof.
  intros. eapply wp_conseq; [apply (@syr2k_ok F) with (c := c); eauto|]. intros [] m' [K1 K2]. split; auto.
  eexists; split; [exact K1|]. intros i j _ _ _. exact (upd2k_acc (ext1 A) (c i j) (a i) (b j) (b i) (a j)).
Qed.
End Float2.

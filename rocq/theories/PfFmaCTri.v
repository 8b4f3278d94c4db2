(** Error bounds of triangular products in contracted complex arithmetic (after PfComplexTri.v). *)
From Coq Require Import List Arith ZArith Reals Lia Lra Psatz Bool.
From Flocq Require Import Core.Core IEEE754.BinarySingleNaN.
From Verif Require Import Mem Scalar View Spec SpecR SpecF SpecC SpecC2 Idx Wp Loops Sums Norm Ieee Fma SpecFma FmaC SpecFmaC Blas1 Blas2 Blas3
  PfBlas1 PfBlas2 PfTrmv PfRank PfBlas3 PfIeee PfApprox PfFloat2 PfFma PfComplex PfFmaC.
Local Open Scope R_scope.

Section Tri.
Context (prec emax : Z) (Hp : Prec_gt_0 prec) (He : Prec_lt_emax prec emax).
Notation C := (fma_cx_ops prec emax Hp He).
Notation cfl := (binary_float prec emax * binary_float prec emax)%type.
Notation eta := (half_tiny prec emax).
Notation cap := (cpapp prec emax Hp He).
Notation ce := (@cexactly prec emax Hp He).
Notation cap_plus := (cpapp_plus prec emax Hp He).
Notation cap_plus_zero := (cpapp_plus_zero prec emax Hp He).

Section Sum.
Variables (E0 : nat) (e : nat -> C) (ok : nat -> Prop) (xr xi Mr Mi D : nat -> R).
Lemma capp_sums : forall lo n (s : cfl),
  (forall k, (lo <= k < lo + n)%nat -> cap E0 (ok k) (xr k) (xi k) (Mr k) (Mi k) (D k) (e k)) ->
  cap (E0 + n) (cfin s /\ forall k, (lo <= k < lo + n)%nat -> ok k) (rpart s + sums lo n xr) (ipart s + sums lo n xi)
    (Rabs (rpart s) + sums lo n Mr) (Rabs (ipart s) + sums lo n Mi) (sums lo n D) (@sum_from C (ce s) lo n e).
Proof.
  intros lo n s. induction n as [|n IH]; intros H.
  - unfold sums. simpl rsum. rewrite !Rplus_0_r. change (@sum_from C (ce s) lo 0 e) with (ce s).
    eapply (cpapp_iff prec emax Hp He); [eapply cpapp_weaken; [apply cpapp_exact, cexact_ex|lia|lra]|].
    split; [intros; split; auto; intros; lia|tauto].
  - rewrite sum_from_S. assert (IH' := IH ltac:(intros; apply H; lia)).
    pose proof (cap_plus _ _ _ _ _ _ _ _ _ _ _ _ _ _ _ IH' (cpapp_weaken _ _ _ _ _ (E0 + n) _ _ _ _ _ _ _ _ (H (lo + n)%nat ltac:(lia)) ltac:(lia) (Rle_refl _))) as K.
    unfold sums in *. cbn [rsum]. replace (E0 + Datatypes.S n)%nat with (E0 + n + 1)%nat by lia. rewrite <- !Rplus_assoc.
    eapply (cpapp_iff prec emax Hp He); [exact K|]. split.
    + intros ((K1 & K2) & K3). split; auto. intros k Hk. destruct (Nat.eq_dec k (lo + n)) as [->|]; auto. apply K2; lia.
    + intros (K1 & K2). split; [split|]; auto; [intros; apply K2; lia|apply K2; lia].
Qed.
Lemma capp_bigsums : forall lo n,
  (forall k, (lo <= k < lo + n)%nat -> cap E0 (ok k) (xr k) (xi k) (Mr k) (Mi k) (D k) (e k)) ->
  cap (E0 + Nat.pred n) (forall k, (lo <= k < lo + n)%nat -> ok k) (sums lo n xr) (sums lo n xi) (sums lo n Mr) (sums lo n Mi)
    (sums lo n D) (@sum_from C (@zero C) lo n e).
Proof.
  intros lo n. induction n as [|n IH]; intros H.
  - unfold sums. simpl rsum. change (@sum_from C (@zero C) lo 0 e) with (@zero C).
    pose proof (cpapp_exact prec emax Hp He czero _ (cexact_ex prec emax Hp He czero)) as K. unfold rpart, ipart, czero in K. simpl in K. rewrite Rabs_R0 in K.
    eapply (cpapp_iff prec emax Hp He); [eapply cpapp_weaken; [exact K|lia|lra]|].
    split; [intros; lia|]. intros _. split; reflexivity.
  - rewrite sum_from_S. assert (IH' := IH ltac:(intros; apply H; lia)). unfold sums in *. cbn [rsum]. destruct n as [|n].
    + change (@sum_from C (@zero C) lo 0 e) with (@zero C). simpl rsum. rewrite !Rplus_0_l. simpl Nat.pred. rewrite !Nat.add_0_r.
      eapply (cpapp_iff prec emax Hp He); [apply cap_plus_zero; apply H; lia|].
      split; intros K; [intros k Hk; replace k with lo by lia; auto|apply K; lia].
    + pose proof (cap_plus _ _ _ _ _ _ _ _ _ _ _ _ _ _ _ IH' (cpapp_weaken _ _ _ _ _ (E0 + Nat.pred (Datatypes.S n)) _ _ _ _ _ _ _ _ (H (lo + Datatypes.S n)%nat ltac:(lia)) ltac:(lia) (Rle_refl _))) as K.
      simpl Nat.pred in *. replace (E0 + Datatypes.S n)%nat with (E0 + n + 1)%nat by lia.
      eapply (cpapp_iff prec emax Hp He); [exact K|]. split.
      * intros (K2 & K3) k Hk. destruct (Nat.eq_dec k (lo + Datatypes.S n)) as [->|]; auto. apply K2; lia.
      * intros K2. split; [intros; apply K2; lia|apply K2; lia].
Qed.
End Sum.

Variables (t : triangle) (d : diagonal) (n : nat).
Variables (a : nat -> nat -> cfl) (f : nat -> cfl).
Notation ea := (fun i k => ce (a i k)).
Notation ef := (fun k => ce (f k)).
Notation pre i k := (ctri_re t d a i k).
Notation pim i k := (ctri_im t d a i k).
Notation rlo := (row_lo t). Notation rlen := (row_len t n).
Definition cxr i k := tprod_re (pre i k) (pim i k) (f k).
Definition cxi i k := tprod_im (pre i k) (pim i k) (f k).
Definition cmr i k := tmag_re (pre i k) (pim i k) (f k).
Definition cmi i k := tmag_im (pre i k) (pim i k) (f k).
Lemma ctri_out : forall i k, ~ in_tri t i k -> pre i k = 0 /\ pim i k = 0.
Proof.
  intros i k H. unfold ctri_re, ctri_im. destruct (Nat.eqb_spec i k) as [->|N].
  - exfalso. apply H. destruct t; simpl; lia.
  - unfold in_tri_b. destruct t; simpl in H |- *.
    + destruct (Nat.leb_spec k i); auto; lia.
    + destruct (Nat.leb_spec i k); auto; lia.
Qed.
Lemma ctri_stored : forall i k, stored t d i k -> pre i k = rpart (a i k) /\ pim i k = ipart (a i k).
Proof.
  intros i k [H N]. unfold ctri_re, ctri_im. destruct (Nat.eqb_spec i k) as [->|Ne].
  - destruct d; auto. exfalso; apply N; auto.
  - unfold in_tri_b. destruct t; simpl in H |- *.
    + destruct (Nat.leb_spec k i); auto; lia.
    + destruct (Nat.leb_spec i k); auto; lia.
Qed.
Lemma ctri_unit : forall i, d = ImplicitUnit -> pre i i = 1 /\ pim i i = 0.
Proof. intros i ->. unfold ctri_re, ctri_im. rewrite Nat.eqb_refl. auto. Qed.
Definition cok_at (i k : nat) : Prop := cfin (f k) /\ (stored t d i k -> cfin (a i k)).
Lemma stored_cap : forall i k v, stored t d i k ->
  cap 2 (cfin (a i k) /\ cfin (f k)) (prod_re (a i k) (f k)) (prod_im (a i k) (f k)) (mag_re (a i k) (f k)) (mag_im (a i k) (f k)) (2 * eta) v ->
  cap 2 (cok_at i k) (cxr i k) (cxi i k) (cmr i k) (cmi i k) (2 * eta) v.
Proof.
  intros i k v S H. unfold cxr, cxi, cmr, cmi. destruct (ctri_stored i k S) as [-> ->].
  eapply (cpapp_iff prec emax Hp He); [exact H|]. unfold cok_at. tauto.
Qed.
Lemma unit_cap : forall i, d = ImplicitUnit -> cap 0 (cok_at i i) (cxr i i) (cxi i i) (cmr i i) (cmi i i) 0 (ce (f i)).
Proof.
  intros i Hd. unfold cxr, cxi, cmr, cmi, tprod_re, tprod_im, tmag_re, tmag_im. destruct (ctri_unit i Hd) as [-> ->].
  rewrite Rabs_R1, Rabs_R0, !Rmult_1_l, !Rmult_0_l, !Rplus_0_r, Rminus_0_r.
  eapply (cpapp_iff prec emax Hp He); [apply cpapp_exact, cexact_ex|]. unfold cok_at. split; [|tauto]. intros; split; auto. intros [_ S]. exfalso; apply S; auto.
Qed.
Lemma tri_term_cap : forall i k, in_tri t i k ->
  cap 2 (cok_at i k) (cxr i k) (cxi i k) (cmr i k) (cmi i k) (2 * eta) (@tri_term C d ea ef i k).
Proof.
  intros i k H. pose proof (eta_pos prec emax). unfold tri_term.
  pose proof (cpapp_prod prec emax Hp He _ _ _ _ (cexact_ex prec emax Hp He (a i k)) (cexact_ex prec emax Hp He (f k))) as P.
  destruct (Nat.eqb_spec i k) as [->|N]; [destruct d eqn:E|].
  - cbv iota. rewrite <- ?E in *. apply stored_cap; auto. split; auto. congruence.
  - cbv iota. rewrite <- ?E in *. eapply cpapp_weaken; [apply unit_cap; auto|lia|lra].
  - apply stored_cap; auto. split; auto.
Qed.
Lemma cok_row : forall i, (i < n)%nat ->
  (forall k, (rlo i <= k < rlo i + rlen i)%nat -> cok_at i k) <->
  ((forall k, (k < n)%nat -> in_tri t i k -> cfin (f k)) /\ (forall k, (k < n)%nat -> stored t d i k -> cfin (a i k))).
Proof.
  intros i Hi. split.
  - intros H. split; intros k Hk K; apply (H k); auto; apply row_in; auto. split; auto. apply K.
  - intros [H1 H2] k Hk. apply row_in in Hk; auto. destruct Hk. split; [apply H1|apply H2]; auto.
Qed.
Lemma csums_row : forall i, (i < n)%nat ->
  sums (rlo i) (rlen i) (cxr i) = rsum n (cxr i) /\ sums (rlo i) (rlen i) (cxi i) = rsum n (cxi i) /\
  sums (rlo i) (rlen i) (cmr i) = rsum n (cmr i) /\ sums (rlo i) (rlen i) (cmi i) = rsum n (cmi i).
Proof.
  intros i Hi. repeat split; symmetry; apply sums_full; auto using row_fits; intros k Hk N;
    unfold cxr, cxi, cmr, cmi, tprod_re, tprod_im, tmag_re, tmag_im;
    (destruct (ctri_out i k) as [-> ->]; [intros T; apply N, row_in; auto|rewrite ?Rabs_R0; ring]).
Qed.
Lemma csums_eta : forall lo len, (len <= n)%nat -> sums lo len (fun _ => 2 * eta) <= INR n * (2 * eta).
Proof.
  intros. unfold sums. rewrite rsum_const. apply Rmult_le_compat_r; [pose proof (eta_pos prec emax); lra|]. apply le_INR; auto.
Qed.
Lemma ctri_acc_intro : forall E i (s : cfl) r, (i < n)%nat ->
  cap E (cfin s /\ forall k, (rlo i <= k < rlo i + rlen i)%nat -> cok_at i k) (rpart s + sums (rlo i) (rlen i) (cxr i)) (ipart s + sums (rlo i) (rlen i) (cxi i))
    (Rabs (rpart s) + sums (rlo i) (rlen i) (cmr i)) (Rabs (ipart s) + sums (rlo i) (rlen i) (cmi i)) (INR n * (2 * eta)) r ->
  all_cvalues r (ctri_accurate E t d n i s a f).
Proof.
  intros E i s r Hi H. destruct (csums_row i Hi) as (E1 & E2 & E3 & E4). rewrite E1, E2, E3, E4 in H.
  unfold ctri_accurate. apply cpapp_spec. eapply (cpapp_iff prec emax Hp He); [exact H|]. rewrite cok_row by auto. tauto.
Qed.
Lemma rlen_pos : forall i, (i < n)%nat -> (0 < rlen i <= n)%nat.
Proof. intros i Hi. pose proof (row_len_le t n i Hi). unfold row_len in *. destruct t; lia. Qed.
Lemma ctri_row_val : forall (s : C) i, @tri_row C s t d n ea ef i = @sum_from C s (rlo i) (rlen i) (@tri_term C d ea ef i).
Proof. intros. unfold tri_row, row_lo, row_len. destruct t; auto. Qed.
Lemma ctri_row_acc : forall (s : cfl) i, (i < n)%nat -> all_cvalues (@tri_row C (ce s) t d n ea ef i) (ctri_accurate (n + 2) t d n i s a f).
Proof.
  intros s i Hi. rewrite ctri_row_val. apply ctri_acc_intro; auto. pose proof (rlen_pos i Hi).
  eapply cpapp_weaken; [eapply capp_sums with (E0 := 2%nat) (D := fun _ => 2 * eta)|lia|apply csums_eta; lia].
  intros k Hk. apply tri_term_cap. apply row_in in Hk; tauto.
Qed.
Lemma cap_zero_start : forall E ok xr xi Mr Mi D r, cap E ok xr xi Mr Mi D r ->
  cap E (cfin (prec := prec) (emax := emax) czero /\ ok) (rpart (prec := prec) (emax := emax) czero + xr) (ipart (prec := prec) (emax := emax) czero + xi)
    (Rabs (rpart (prec := prec) (emax := emax) czero) + Mr) (Rabs (ipart (prec := prec) (emax := emax) czero) + Mi) D r.
Proof.
  intros. change (rpart (prec := prec) (emax := emax) czero) with 0. change (ipart (prec := prec) (emax := emax) czero) with 0. rewrite Rabs_R0, !Rplus_0_l.
  eapply (cpapp_iff prec emax Hp He); [eauto|]. split; [|tauto]. intros; split; auto. split; reflexivity.
Qed.
Lemma ctri_row_acc0 : forall i, (i < n)%nat -> all_cvalues (@tri_row C (@zero C) t d n ea ef i) (ctri_accurate (n + 1) t d n i czero a f).
Proof.
  intros i Hi. rewrite ctri_row_val. apply ctri_acc_intro; auto. apply cap_zero_start. pose proof (rlen_pos i Hi).
  eapply cpapp_weaken; [eapply capp_bigsums with (E0 := 2%nat) (D := fun _ => 2 * eta)|lia|apply csums_eta; lia].
  intros k Hk. apply tri_term_cap. apply row_in in Hk; tauto.
Qed.
(** the unit diagonal added last *)
Lemma ctri_elem_gen : forall i (e : nat -> C), (i < n)%nat ->
  (forall k, cap 2 (cfin (a i k) /\ cfin (f k)) (prod_re (a i k) (f k)) (prod_im (a i k) (f k)) (mag_re (a i k) (f k)) (mag_im (a i k) (f k)) (2 * eta) (e k)) ->
  all_cvalues (@tri_elem C (is_lower t) d n i e (ce (f i))) (ctri_accurate (n + 1) t d n i czero a f).
Proof.
  intros i e Hi Hte. apply ctri_acc_intro; auto. apply cap_zero_start. pose proof (rlen_pos i Hi) as HL. pose proof (eta_pos prec emax) as HE. destruct d eqn:Ed.
  - rewrite <- Ed.
    replace (@tri_elem C (is_lower t) d n i e (ce (f i))) with (@sum_from C (@zero C) (rlo i) (rlen i) e)
      by (rewrite Ed; unfold tri_elem, row_lo, row_len; destruct t; cbn [is_lower is_explicit]; rewrite ?Nat.sub_0_r; auto).
    eapply cpapp_weaken; [eapply capp_bigsums with (E0 := 2%nat) (D := fun _ => 2 * eta)|lia|apply csums_eta; lia].
    intros k Hk. apply row_in in Hk; auto. apply stored_cap; auto. split; [tauto|congruence].
  - 
    set (lo := if is_lower t then 0%nat else (i + 1)%nat). set (len := ((if is_lower t then i else n) - lo)%nat).
    change (@tri_elem C (is_lower t) ImplicitUnit n i e (ce (f i))) with (@add C (@sum_from C (@zero C) lo len e) (ce (f i))).
    assert (HR : forall k, (lo <= k < lo + len)%nat <-> (k < n)%nat /\ stored t d i k).
    { intros k. unfold len, lo, stored. rewrite Ed. destruct t; simpl.
      - split; [intros K; split; [lia|split; [lia|intros _; lia]]|]. intros (K1 & K2 & N). specialize (N eq_refl). lia.
      - split; [intros K; split; [lia|split; [lia|intros _; lia]]|]. intros (K1 & K2 & N). specialize (N eq_refl). lia. }
    assert (HS : forall g, sums (rlo i) (rlen i) g = sums lo len g + g i).
    { intros g. unfold sums, row_lo, row_len, len, lo. destruct t; simpl is_lower; cbv iota.
      - rewrite Nat.sub_0_r, Nat.add_1_r. simpl. auto.
      - replace (n - i)%nat with (1 + (n - (i + 1)))%nat by lia. rewrite rsum_app. simpl. rewrite Nat.add_0_r.
        rewrite (rsum_ext _ (fun k => g (i + Datatypes.S k)%nat) (fun k => g (i + 1 + k)%nat)) by (intros; f_equal; lia). lra. }
    rewrite !HS.
    assert (A1 : cap (2 + Nat.pred len) (forall k, (lo <= k < lo + len)%nat -> cok_at i k)
      (sums lo len (cxr i)) (sums lo len (cxi i)) (sums lo len (cmr i)) (sums lo len (cmi i)) (sums lo len (fun _ => 2 * eta))
      (@sum_from C (@zero C) lo len e)).
    { apply capp_bigsums. intros k Hk. apply HR in Hk. destruct Hk as [Hk Hs]. apply stored_cap; auto. }
    assert (LL : (len + 1 <= n)%nat) by (unfold len, lo; destruct t; simpl; lia).
    pose proof (unit_cap i Ed) as U.
    assert (A2 : cap (n + 1) ((forall k, (lo <= k < lo + len)%nat -> cok_at i k) /\ cok_at i i)
      (sums lo len (cxr i) + cxr i i) (sums lo len (cxi i) + cxi i i) (sums lo len (cmr i) + cmr i i) (sums lo len (cmi i) + cmi i i)
      (INR n * (2 * eta)) (@add C (@sum_from C (@zero C) lo len e) (ce (f i)))).
    { assert (0 <= INR n * (2 * eta)) by (apply Rmult_le_pos; [apply pos_INR|lra]).
      clearbody len. destruct len as [|len'].
      - unfold sums. simpl rsum. rewrite !Rplus_0_l. change (@sum_from C (@zero C) lo 0 _) with (@zero C).
        eapply (cpapp_iff prec emax Hp He); [eapply cpapp_weaken; [apply cap_plus_zero, U|lia|lra]|].
        split; [intros; split; auto; intros; lia|tauto].
      - eapply cpapp_weaken; [eapply cap_plus; [exact A1|eapply cpapp_weaken; [exact U|lia|apply Rle_refl]]|simpl; lia|].
        rewrite Rplus_0_r. apply csums_eta. lia. }
    eapply (cpapp_iff prec emax Hp He); [exact A2|]. split.
    + intros [K1 K2] k Hk. apply row_in in Hk; auto.
      destruct (Nat.eq_dec i k) as [<-|N]; auto. apply K1, HR. split; [tauto|]. split; [tauto|auto].
    + intros K. split; [|apply (K i); apply row_in; auto; split; auto; destruct t; simpl; lia].
      intros k Hk. apply K. apply row_in; auto. apply HR in Hk. unfold stored in Hk. tauto.
Qed.
Lemma ctri_elem_acc : forall i, (i < n)%nat ->
  all_cvalues (@tri_elem C (is_lower t) d n i (fun k => @mul C (ce (a i k)) (ce (f k))) (ce (f i))) (ctri_accurate (n + 1) t d n i czero a f).
Proof. intros. apply ctri_elem_gen; auto. intros; apply cpapp_prod; apply cexact_ex. Qed.
End Tri.

Section Ops.
Context (prec emax : Z) (Hp : Prec_gt_0 prec) (He : Prec_lt_emax prec emax).
Notation C := (fma_cx_ops prec emax Hp He).
Notation cfl := (binary_float prec emax * binary_float prec emax)%type.
Notation ce := (@cexactly prec emax Hp He).
Notation eta := (half_tiny prec emax).
Local Open Scope nat_scope.

Lemma ctri_flip : forall t d (a : nat -> nat -> cfl) j k,
  ctri_re (prec := prec) (emax := emax) (flip t) d (fun i j => a j i) j k = ctri_re t d a k j /\
  ctri_im (prec := prec) (emax := emax) (flip t) d (fun i j => a j i) j k = ctri_im t d a k j.
Proof.
  intros. unfold ctri_re, ctri_im. rewrite (Nat.eqb_sym j k). destruct (Nat.eqb_spec k j) as [->|]; auto.
  unfold in_tri_b. destruct t; simpl; auto.
Qed.
Lemma ctri_elem_acc_r : forall t d n (a : nat -> nat -> cfl) (f : nat -> cfl) j, j < n ->
  all_cvalues (@tri_elem C (negb (is_lower t)) d n j (fun k => @mul C (ce (f k)) (ce (a k j))) (ce (f j))) (ctri_accurate_r (n + 1) t d n j czero a f).
Proof.
  intros t d n a f j Hj.
  assert (K : all_cvalues (@tri_elem C (is_lower (flip t)) d n j (fun k => @mul C (ce (f k)) (ce (a k j))) (ce (f j)))
    (ctri_accurate (n + 1) (flip t) d n j czero (fun i j => a j i) f)).
  { apply ctri_elem_gen; auto. intros k.
    pose proof (cpapp_prod prec emax Hp He _ _ _ _ (cexact_ex prec emax Hp He (f k)) (cexact_ex prec emax Hp He (a k j))) as P.
    replace (prod_re (a k j) (f k)) with (prod_re (f k) (a k j)) by (unfold prod_re; ring).
    replace (prod_im (a k j) (f k)) with (prod_im (f k) (a k j)) by (unfold prod_im; ring).
    replace (mag_re (a k j) (f k)) with (mag_re (f k) (a k j)) by (unfold mag_re; ring).
    replace (mag_im (a k j) (f k)) with (mag_im (f k) (a k j)) by (unfold mag_im; ring).
    eapply (cpapp_iff prec emax Hp He); [exact P|]. tauto. }
  replace (negb (is_lower t)) with (is_lower (flip t)) by (destruct t; auto).
  intros r Hr1 Hr2. specialize (K r Hr1 Hr2).
  unfold ctri_accurate in K. unfold ctri_accurate_r.
  assert (RF : forall (h : R -> R -> R), rsum n (fun k => h 0%R 0%R) = rsum n (fun k => h 0%R 0%R)) by auto.
  assert (RX : forall (h : R -> R -> cfl -> R),
    rsum n (fun k => h (ctri_re (flip t) d (fun i j => a j i) j k) (ctri_im (flip t) d (fun i j => a j i) j k) (f k)) =
    rsum n (fun k => h (ctri_re t d a k j) (ctri_im t d a k j) (f k))).
  { intros h. apply rsum_ext. intros k _. destruct (ctri_flip t d a j k) as [-> ->]. auto. }
  rewrite (RX tprod_re), (RX tprod_im), (RX tmag_re), (RX tmag_im) in K.
  assert (IT : forall k, in_tri (flip t) j k <-> in_tri t k j) by (intros; destruct t; simpl; tauto).
  assert (ST : forall k, stored (flip t) d j k <-> stored t d k j) by (intros; unfold stored; rewrite IT; intuition congruence).
  destruct K as [K1 K2]. split.
  - intros H. destruct (K1 H) as [(Q1 & Q2 & Q3) Q4]. split; auto. split; auto. split; intros k Hk Hs.
    + apply Q2; auto. apply IT; auto. + apply Q3; auto. apply ST; auto.
  - intros (Q1 & Q2 & Q3) Q4 Q5. apply K2; auto. split; auto. split; intros k Hk Hs.
    + apply Q2; auto. apply IT; auto. + apply Q3; auto. apply ST; auto.
Qed.

Lemma trmv_cfma : forall (m : mem C) A t d x y (a : nat -> nat -> cfl) (f : nat -> cfl),
  ext0 A = ext1 A -> vext x = ext1 A -> vext y = ext0 A ->
  mat_holds_on m A (stored t d) (fun i j => ce (a i j)) -> vec_holds m x (fun i => ce (f i)) -> vwritable y -> allocated m (vcells y) ->
  disjoint (mcells_on A (stored t d)) (vcells y) -> disjoint (vcells x) (vcells y) ->
  succeeds (triangular_matrix_vector_product A t d x y) m (fun _ m' =>
    (exists r, vec_holds m' y r /\ forall i, i < vext y -> all_cvalues (r i) (ctri_accurate (ext1 A + 1) t d (ext1 A) i czero a f)) /\
    changes_only m m' (vcells y)).
Proof.
  intros. eapply wp_conseq; [apply (@trmv_ok C); eauto|]. intros [] m' [K1 K2]. split; auto.
  eexists; split; [exact K1|]. intros. apply (ctri_row_acc0 prec emax Hp He). lia.
Qed.
Lemma trmv_upd_cfma : forall (m : mem C) A t d x y z (a : nat -> nat -> cfl) (f : nat -> cfl) (g : nat -> cfl),
  ext0 A = ext1 A -> vext x = ext1 A -> vext y = ext0 A -> vext z = ext0 A ->
  mat_holds_on m A (stored t d) (fun i j => ce (a i j)) -> vec_holds m x (fun i => ce (f i)) -> vec_holds m y (fun i => ce (g i)) -> vwritable z -> allocated m (vcells z) ->
  disjoint (mcells_on A (stored t d)) (vcells z) -> disjoint (vcells x) (vcells z) -> disjoint_or_aligned_v y z ->
  succeeds (triangular_matrix_vector_product_upd A t d x y z) m (fun _ m' =>
    (exists r, vec_holds m' z r /\ forall i, i < vext z -> all_cvalues (r i) (ctri_accurate (ext1 A + 2) t d (ext1 A) i (g i) a f)) /\
    changes_only m m' (vcells z)).
Proof.
  intros. eapply wp_conseq; [apply (@trmv_upd_ok C) with (g := fun i => ce (g i)); eauto|]. intros [] m' [K1 K2]. split; auto.
  eexists; split; [exact K1|]. intros. apply (ctri_row_acc prec emax Hp He). lia.
Qed.
Lemma trmm_left_cfma : forall ty (m : mem C) A t d B C0 (a : nat -> nat -> cfl) (b : nat -> nat -> cfl),
  fits ty (ext0 C0) ->
  ext0 A = ext1 A -> ext0 C0 = ext0 A -> ext1 A = ext0 B -> ext1 C0 = ext1 B ->
  mat_holds_on m A (stored t d) (fun i j => ce (a i j)) -> mat_holds m B (fun i j => ce (b i j)) -> mwritable C0 -> allocated m (mcells C0) ->
  disjoint (mcells_on A (stored t d)) (mcells C0) -> disjoint (mcells B) (mcells C0) ->
  succeeds (triangular_matrix_product_left ty A t d B C0) m (fun _ m' =>
    (exists r, mat_holds m' C0 r /\ forall i j, i < ext0 C0 -> j < ext1 C0 ->
       all_cvalues (r i j) (ctri_accurate (ext1 A + 1) t d (ext1 A) i czero a (fun k => b k j))) /\
    changes_only m m' (mcells C0)).
Proof.
  intros. eapply wp_conseq; [apply (@trmm_left_raw C); eauto|]. intros [] m' [K1 K2]. split; auto.
  eexists; split; [exact K1|]. intros i j Hi Hj. apply (ctri_elem_acc prec emax Hp He t d (ext1 A) a (fun k => b k j)). lia.
Qed.
Lemma trmm_right_cfma : forall ty (m : mem C) B A t d C0 (a : nat -> nat -> cfl) (b : nat -> nat -> cfl),
  fits ty (ext1 C0) ->
  ext0 A = ext1 A -> ext0 C0 = ext0 B -> ext1 B = ext0 A -> ext1 C0 = ext1 A ->
  mat_holds_on m A (stored t d) (fun i j => ce (a i j)) -> mat_holds m B (fun i j => ce (b i j)) -> mwritable C0 -> allocated m (mcells C0) ->
  disjoint (mcells_on A (stored t d)) (mcells C0) -> disjoint (mcells B) (mcells C0) ->
  succeeds (triangular_matrix_product_right ty B A t d C0) m (fun _ m' =>
    (exists r, mat_holds m' C0 r /\ forall i j, i < ext0 C0 -> j < ext1 C0 ->
       all_cvalues (r i j) (ctri_accurate_r (ext1 A + 1) t d (ext1 A) j czero a (b i))) /\
    changes_only m m' (mcells C0)).
Proof.
  intros. eapply wp_conseq; [apply (@trmm_right_raw C); eauto|]. intros [] m' [K1 K2]. split; auto.
  eexists; split; [exact K1|]. intros i j Hi Hj. apply (ctri_elem_acc_r t d (ext1 A) a (b i)). lia.
Qed.
End Ops.

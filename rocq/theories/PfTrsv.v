(** Proofs about Blas2.v: triangular solve with one right-hand side. *)
From Coq Require Import List Arith ZArith Lia Bool.
From Verif Require Import Mem Scalar View Spec Wp Loops Sums Idx PfBlas1 Blas2 PfBlas2.
Import ListNotations.
Set Implicit Arguments.
Local Open Scope sc_scope.

Lemma wrap_id : forall t z, (0 <= z <= max_of t)%Z -> wrap t z = z.
Proof.
  intros t z H. unfold wrap, max_of in *.
  destruct t; cbn [bits is_signed] in *; rewrite Z.mod_small by (simpl in *; lia);
  try reflexivity;
  match goal with |- context [(?x <? ?y)%Z] => destruct (Z.ltb_spec x y) end;
  simpl in *; lia.
Qed.

Lemma promote_max : forall t, (max_of t <= max_of (promote t))%Z.
Proof. intros []; vm_compute; congruence. Qed.

(** The descending loop starts at n-1 (in ptrdiff_t), except for an empty system with a 32-bit
    unsigned size type. *)
Lemma descending_start_ok : forall t n, fits t n -> (n = 0 -> t <> U32) ->
  descending_start t n = (Z.of_nat n - 1)%Z.
Proof.
  intros t n [H1 H2] H0. unfold descending_start.
  rewrite (@wrap_id t) by lia. destruct (Nat.eq_dec n 0) as [->|Hn].
  - specialize (H0 eq_refl). destruct t; try reflexivity; congruence.
  - rewrite (@wrap_id (promote t)). 2: { pose proof (promote_max t). lia. }
    rewrite wrap_id; auto. lia.
Qed.

Section Pf.
Context {O : ops}.

(** t = ((b - e lo) - ...) - e (hi-1) *)
Definition diff_from (init : O) (lo n : nat) (f : nat -> O) : O :=
  fold_left (fun s k => s - f k) (seq lo n) init.
Lemma diff_from_S : forall (s : O) lo n f,
  diff_from s lo (S n) f = diff_from s lo n f - f (lo + n)%nat.
Proof. intros; unfold diff_from. rewrite seq_S, fold_left_app; reflexivity. Qed.

Lemma diff_sum : ring_laws O -> forall (b : O) lo n f,
  sum_from zero lo n f + diff_from b lo n f = b.
Proof.
  intros L b lo n f. pose proof (ring_add L) as LA. induction n as [|n IH].
  - apply (add_0_l LA).
  - rewrite sum_from_S, diff_from_S. rewrite <- (add_assoc LA), (add_comm LA (f _)), (sub_add L). auto.
Qed.

Lemma wp_diff : forall (m : mem O) lo hi b (e : nat -> O) body (Q : O -> mem O -> Prop),
  lo <= hi ->
  (forall j s, lo <= j < hi -> run (body j s) m = Ok (s - e j) m) ->
  Q (diff_from b lo (hi - lo) e) m ->
  succeeds (fold_range lo hi body b) m Q.
Proof.
  intros m lo hi b e body Q Hl Hb HQ.
  apply wp_fold_range with (I := fun k s m' => s = diff_from b lo (k - lo) e /\ m' = m); auto.
  - rewrite Nat.sub_diag; auto.
  - intros j s m' Hj [-> ->]. exists (diff_from b lo (j - lo) e - e j), m. split; [apply Hb; auto|].
    split; auto. replace (S j - lo)%nat with (S (j - lo)) by lia. rewrite diff_from_S.
    do 2 f_equal; lia.
  - intros s m' [-> ->]; auto.
Qed.

Lemma run_mget : forall (m : mem O) A (P : nat -> nat -> Prop) a i j,
  mat_holds_on m A P a -> i < ext0 A -> j < ext1 A -> P i j -> run (mget A i j) m = Ok (a i j) m.
Proof.
  intros. pose proof (@wp_mget O A P a i j m (fun v m' => v = a i j /\ m' = m) H H0 H1 H2) as (v & m' & E & -> & ->); auto.
Qed.
Lemma run_vget : forall (m : mem O) x f i,
  vec_holds m x f -> i < vext x -> run (vget x i) m = Ok (f i) m.
Proof.
  intros. pose proof (@wp_vget O x f i m (fun v m' => v = f i /\ m' = m) H H0) as (v & m' & E & -> & ->); auto.
Qed.

Lemma trsv_lower_ok : forall (m : mem O) divide A d B X a b,
  ring_laws O ->
  ext0 A = ext1 A -> vext B = ext0 A -> vext X = ext0 A ->
  mat_holds_on m A (stored Lower d) a -> vec_holds m B b -> vwritable X -> allocated m (vcells X) ->
  disjoint (mcells_on A (stored Lower d)) (vcells X) -> disjoint_or_aligned_v B X ->
  div_ok divide d (ext0 A) a ->
  succeeds (trsv_lower divide A d B X) m (fun _ m' =>
    (exists f, vec_holds m' X f /\
      forall i, i < ext0 A -> tri_row zero Lower d (ext0 A) a f i = b i) /\ changes_only m m' (vcells X)).
Proof.
  intros m divide A d B X a b L Hsq HB HX HA Hb Hw Hal HdA HdB Hdiv.
  pose proof (alloc_vec_holds Hal) as H0. pose proof (ring_add L) as LA.
  unfold trsv_lower.
  apply wp_for_range with (I := fun k m' => exists f, vst m m' X f /\
     (forall i, i < k -> tri_row zero Lower d (ext0 A) a f i = b i) /\
     (forall i, k <= i < ext0 A -> f i = contents_v m X i)); try lia.
  - exists (contents_v m X). split; auto using vst_init. split; auto; lia.
  - intros i m1 Hi (f & Hst & Hdone & Hrest).
    assert (mat_holds_on m1 A (stored Lower d) a) as HA1
      by (eapply mat_holds_frame; [exact HA|apply Hst|exact HdA]).
    apply wp_bind. eapply wp_vget_alias with (x := B); eauto; try lia.
    { apply Hrest; lia. }
    apply wp_bind. eapply wp_diff with (e := fun j => a i j * f j); try lia.
    { intros j s Hj. rewrite run_bind, (run_mget (a := a) HA1) by (try split; simpl; lia).
      rewrite run_bind, (run_vget (f := f)) by (try apply Hst; lia). reflexivity. }
    rewrite Nat.sub_0_r.
    set (t := diff_from (b i) 0 i (fun j => a i j * f j)).
    assert (forall v, diag_term d (a i i) v = t -> forall m2, vst m m2 X (fset f i v) ->
       exists f0, vst m m2 X f0 /\
        (forall k, k < S i -> tri_row zero Lower d (ext0 A) a f0 k = b k) /\
        (forall k, S i <= k < ext0 A -> f0 k = contents_v m X k)) as K.
    { intros v Hv m2 H2. exists (fset f i v). split; auto. split.
      - intros k Hk. rewrite tri_row_lower. unfold fset at 2.
        rewrite (@sum_from_ext O zero 0 k _ (fun j => a k j * f j))
          by (intros; rewrite fset_other; auto; lia).
        destruct (Nat.eqb_spec k i) as [->|].
        + rewrite Hv. apply diff_sum; auto.
        + rewrite <- (Hdone k) by lia. rewrite tri_row_lower; auto.
      - intros k Hk. rewrite fset_other by lia. apply Hrest; lia. }
    destruct d; simpl.
    + apply wp_bind. eapply wp_mget; eauto; try lia. { split; simpl; [lia|discriminate]. }
      eapply wp_vset; [exact Hw|exact Hst|lia|]. intros m2 H2. eapply K; [|exact H2]. simpl. apply Hdiv; auto; lia.
    + eapply wp_vset; [exact Hw|exact Hst|lia|]. intros m2 H2. eapply K; [|exact H2]. reflexivity.
  - intros m1 (f & Hst & Hdone & _). split; [|apply Hst]. exists f; split; auto. apply Hst.
Qed.

Lemma trsv_upper_ok : forall ty (m : mem O) divide A d B X a b,
  ring_laws O ->
  fits ty (ext0 A) -> (ext0 A = 0 -> ty <> U32) ->
  ext0 A = ext1 A -> vext B = ext0 A -> vext X = ext0 A ->
  mat_holds_on m A (stored Upper d) a -> vec_holds m B b -> vwritable X -> allocated m (vcells X) ->
  disjoint (mcells_on A (stored Upper d)) (vcells X) -> disjoint_or_aligned_v B X ->
  div_ok divide d (ext0 A) a ->
  succeeds (trsv_upper ty divide A d B X) m (fun _ m' =>
    (exists f, vec_holds m' X f /\
      forall i, i < ext0 A -> tri_row zero Upper d (ext0 A) a f i = b i) /\ changes_only m m' (vcells X)).
Proof.
  intros ty m divide A d B X a b L Hfit H32 Hsq HB HX HA Hb Hw Hal HdA HdB Hdiv.
  pose proof (alloc_vec_holds Hal) as H0. pose proof (ring_add L) as LA.
  unfold trsv_upper. rewrite descending_start_ok by auto.
  replace (Z.to_nat (Z.of_nat (ext0 A) - 1 + 1)) with (ext0 A) by lia.
  apply wp_for_down with (I := fun k m' => exists f, vst m m' X f /\
     (forall i, k <= i < ext0 A -> tri_row zero Upper d (ext0 A) a f i = b i) /\
     (forall i, i < k -> f i = contents_v m X i)); try lia.
  - exists (contents_v m X). split; auto using vst_init. split; auto; lia.
  - intros i m1 Hi (f & Hst & Hdone & Hrest).
    assert (mat_holds_on m1 A (stored Upper d) a) as HA1
      by (eapply mat_holds_frame; [exact HA|apply Hst|exact HdA]).
    apply wp_bind. eapply wp_vget_alias with (x := B); eauto; try lia.
    apply wp_bind. unfold from_index. destruct Hfit as [Hf1 Hf2].
    rewrite wrap_id by lia. destruct (Z.ltb_spec (Z.of_nat i + 1) 0); [lia|].
    replace (Z.to_nat (Z.of_nat i + 1)) with (i + 1)%nat by lia.
    eapply wp_diff with (e := fun j => a i j * f j); try lia.
    { intros j s Hj. rewrite run_bind, (run_mget (a := a) HA1) by (try split; simpl; lia).
      rewrite run_bind, (run_vget (f := f)) by (try apply Hst; lia). reflexivity. }
    set (t := diff_from (b i) (i + 1) (ext1 A - (i + 1)) (fun j => a i j * f j)).
    assert (forall v, diag_term d (a i i) v = t -> forall m2, vst m m2 X (fset f i v) ->
       exists f0, vst m m2 X f0 /\
        (forall k, i <= k < ext0 A -> tri_row zero Upper d (ext0 A) a f0 k = b k) /\
        (forall k, k < i -> f0 k = contents_v m X k)) as K.
    { intros v Hv m2 H2. exists (fset f i v). split; auto. split.
      - intros k Hk. rewrite tri_row_upper by (auto; lia). unfold fset at 2.
        rewrite (@sum_from_ext O zero (k + 1) _ _ (fun j => a k j * f j))
          by (intros; rewrite fset_other; auto; lia).
        destruct (Nat.eqb_spec k i) as [->|].
        + rewrite Hv. unfold t. rewrite Hsq. apply diff_sum; auto.
        + rewrite <- (Hdone k) by lia. rewrite tri_row_upper; auto; lia.
      - intros k Hk. rewrite fset_other by lia. apply Hrest; lia. }
    destruct d; simpl.
    + apply wp_bind. eapply wp_mget; eauto; try lia. { split; simpl; [lia|discriminate]. }
      eapply wp_vset; [exact Hw|exact Hst|lia|]. intros m2 H2. eapply K; [|exact H2]. simpl. apply Hdiv; auto; lia.
    + eapply wp_vset; [exact Hw|exact Hst|lia|]. intros m2 H2. eapply K; [|exact H2]. reflexivity.
  - intros m1 (f & Hst & Hdone & _). split; [|apply Hst]. exists f; split; [apply Hst|].
    intros; apply Hdone; lia.
Qed.

Lemma trsv_ok : forall ty (m : mem O) divide A t d B X a b,
  ring_laws O ->
  fits ty (ext0 A) -> (ext0 A = 0 -> t = Upper -> ty <> U32) ->
  ext0 A = ext1 A -> vext B = ext0 A -> vext X = ext0 A ->
  mat_holds_on m A (stored t d) a -> vec_holds m B b -> vwritable X -> allocated m (vcells X) ->
  disjoint (mcells_on A (stored t d)) (vcells X) -> disjoint_or_aligned_v B X ->
  div_ok divide d (ext0 A) a ->
  succeeds (triangular_matrix_vector_solve_with ty divide A t d B X) m (fun _ m' =>
    (exists f, vec_holds m' X f /\
      forall i, i < ext0 A -> bigsum (ext0 A) (fun j => tri_of t d a i j * f j) = b i)
    /\ changes_only m m' (vcells X)).
Proof.
  intros ty m divide A t d B X a b L Hfit H32 Hsq HB HX HA Hb Hw Hal HdA HdB Hdiv.
  pose proof (ring_add L) as LA.
  assert (forall f i, i < ext0 A -> tri_row zero t d (ext0 A) a f i = b i ->
     bigsum (ext0 A) (fun j => tri_of t d a i j * f j) = b i) as K.
  { intros f i Hi E. rewrite tri_row_sum in E by auto. rewrite (add_0_l LA) in E; auto. }
  destruct t; simpl.
  - eapply wp_conseq; [eapply trsv_lower_ok; eauto|].
    intros [] m' ((f & H1 & H2) & H3). split; auto. exists f; split; auto.
  - eapply wp_conseq; [eapply trsv_upper_ok; eauto|].
    intros [] m' ((f & H1 & H2) & H3). split; auto. exists f; split; auto.
Qed.

(** * Uniqueness of the solution: equal products imply equal vectors. *)
Definition cancels (d : diagonal) (n : nat) (a : nat -> nat -> O) : Prop :=
  d = Explicit -> forall i u v, i < n -> a i i * u = a i i * v -> u = v.

Lemma add_cancel_l : ring_laws O -> forall x y z : O, x + y = x + z -> y = z.
Proof.
  intros L x y z H. pose proof (ring_add L) as LA.
  rewrite <- (add_0_l LA y), <- (add_0_l LA z).
  assert ((zero - x) + x = zero) as E by apply (sub_add L).
  rewrite <- E, <- !(add_assoc LA), H; auto.
Qed.

Lemma diag_cancel : forall d n a i (u v : O), cancels d n a -> i < n ->
  diag_term d (a i i) u = diag_term d (a i i) v -> u = v.
Proof. intros [] n a i u v H Hi E; simpl in E; auto. eapply H; eauto. Qed.

Lemma tri_unique : ring_laws O -> forall t d n a (f g : nat -> O),
  cancels d n a ->
  (forall i, i < n -> bigsum n (fun j => tri_of t d a i j * f j) = bigsum n (fun j => tri_of t d a i j * g j)) ->
  forall i, i < n -> f i = g i.
Proof.
  intros L t d n a f g Hc H. pose proof (ring_add L) as LA.
  assert (forall i, i < n -> tri_row zero t d n a f i = tri_row zero t d n a g i) as K.
  { intros i Hi. rewrite !tri_row_sum by auto. rewrite H; auto. }
  destruct t.
  - intros i. induction i as [i IH] using lt_wf_ind. intros Hi.
    specialize (K i Hi). rewrite !tri_row_lower in K.
    rewrite (@sum_from_ext O zero 0 i _ (fun j => a i j * g j)) in K
      by (intros; rewrite IH; auto; lia).
    apply (add_cancel_l L) in K. eapply diag_cancel; eauto.
  - assert (forall k i, (n - i)%nat = k -> i < n -> f i = g i) as G.
    { intros k; induction k as [k IH] using lt_wf_ind. intros i Hk Hi.
      specialize (K i Hi). rewrite !tri_row_upper in K by auto.
      rewrite (@sum_from_ext O zero (i + 1) _ _ (fun j => a i j * g j)) in K
        by (intros j Hj; rewrite (IH (n - j)%nat); auto; lia).
      apply (add_cancel_l L) in K. eapply diag_cancel; eauto. }
    intros i Hi; eapply G; eauto.
Qed.

Lemma cancels_div : ring_laws O -> div_laws O -> forall d n (a : nat -> nat -> O),
  (d = Explicit -> forall i, i < n -> a i i <> zero) -> cancels d n a.
Proof.
  intros L D d n a Ha E i u v Hi H.
  assert ((one / a i i) * a i i = one) as E1 by (apply (div_r D); auto).
  rewrite <- (mul_1_l L u), <- (mul_1_l L v), <- E1, <- !(mul_assoc L), H; auto.
Qed.
End Pf.

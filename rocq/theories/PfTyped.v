(** Triangular solves of mixed types. *)
From Coq Require Import List Arith ZArith Lia Bool.
From Verif Require Import Mem Scalar View Spec SpecSub SpecT Wp Loops Sums Idx PfBlas1 Blas2 PfBlas2 PfTrsv PfRank Blas3 PfBlas3 PfTrsm PfSub Proxy Typed.
Import ListNotations.
Set Implicit Arguments.
Local Open Scope prog_scope.

Section Pf.
Variable L : cpp.
Variables z o : cval L.
Notation O := (typed_ops L z o).
Variables tA tB tX : ctype L.

Lemma typed_diffs_S : forall (c : ctype L) s lo n f,
  typed_diffs L c s lo (S n) f = cast L c (cbin L Minus (typed_diffs L c s lo n f) (f (lo + n))).
Proof. intros c s lo n f. unfold typed_diffs. rewrite seq_S, fold_left_app. reflexivity. Qed.
Lemma typed_diffs_ext : forall (c : ctype L) s lo n f g, (forall k, lo <= k < lo + n -> f k = g k) ->
  typed_diffs L c s lo n f = typed_diffs L c s lo n g.
Proof.
  intros c s lo n f g; induction n as [|n IH]; intros H; auto.
  rewrite !typed_diffs_S, IH by (intros; apply H; lia). rewrite H by lia. reflexivity.
Qed.
Lemma wp_typed : forall (c : ctype L) (m : mem O) lo hi (b : O) (e : nat -> O) body (Q : O -> mem O -> Prop),
  lo <= hi ->
  (forall j s, lo <= j < hi -> run (body j s) m = Ok (cast L c (cbin L Minus s (e j))) m) ->
  Q (typed_diffs L c b lo (hi - lo) e) m ->
  succeeds (fold_range lo hi body (cast L c b)) m Q.
Proof.
  intros c m lo hi b e body Q Hl Hb HQ.
  apply wp_fold_range with (I := fun k s m' => s = typed_diffs L c b lo (k - lo) e /\ m' = m); auto.
  - rewrite Nat.sub_diag; auto.
  - intros j s m' Hj [-> ->]. eexists _, m. split; [apply Hb; auto|].
    split; auto. replace (S j - lo) with (S (j - lo)) by lia. rewrite typed_diffs_S.
    do 3 f_equal; lia.
  - intros s m' [-> ->]; auto.
Qed.

Lemma typed_ext : forall (c x : ctype L) t d n a (b f g : nat -> cval L) i, i < n ->
  (forall k, match t with Lower => k < i | Upper => i < k < n end -> f k = g k) ->
  typed_subst L c x t d n a b f i = typed_subst L c x t d n a b g i.
Proof.
  intros c x t d n a b f g i Hi H. unfold typed_subst.
  rewrite (@typed_diffs_ext c (b i) _ _ (fun j => cbin L Times (a i j) (f j)) (fun j => cbin L Times (a i j) (g j))); auto.
  intros k Hk. rewrite H; auto. destruct t; simpl in *; lia.
Qed.
Lemma typed_ext_r : forall (c x : ctype L) t d n a (b f g : nat -> cval L) i, i < n ->
  (forall k, match t with Upper => k < i | Lower => i < k < n end -> f k = g k) ->
  typed_subst_r L c x t d n a b f i = typed_subst_r L c x t d n a b g i.
Proof.
  intros c x t d n a b f g i Hi H. unfold typed_subst_r.
  rewrite (@typed_diffs_ext c (b i) _ _ (fun j => cbin L Times (f j) (a j i)) (fun j => cbin L Times (g j) (a j i))); auto.
  intros k Hk. rewrite H; auto. destruct t; simpl in *; lia.
Qed.

(** The vector solve with an accumulator of any type. *)
Definition trsv_in (c : ctype L) (ty : ity) (A : mat O) (t : triangle) (d : diagonal) (B X : vec O) : prog O unit :=
  match t with
  | Lower => for_range 0 (ext0 A) (fun i =>
      let! b := vget B i in
      let! s := fold_range 0 i (fun j s =>
                  let! aij := mget A i j in let! xj := vget X j in
                  Ret (cast L c (cbin L Minus s (cbin L Times aij xj)))) (cast L c b) in
      if is_explicit d then let! aii := mget A i i in vset X i (cast L tX (cbin L Divide s aii))
      else vset X i (cast L tX s))
  | Upper => for_down (Z.to_nat (descending_start ty (ext0 A) + 1)) (fun i =>
      let! b := vget B i in
      let! s := from_index (wrap ty (Z.of_nat i + 1)) (fun lo =>
                fold_range lo (ext1 A) (fun j s =>
                  let! aij := mget A i j in let! xj := vget X j in
                  Ret (cast L c (cbin L Minus s (cbin L Times aij xj)))) (cast L c b)) in
      if is_explicit d then let! aii := mget A i i in vset X i (cast L tX (cbin L Divide s aii))
      else vset X i (cast L tX s))
  end.

Lemma trsv_in_ok : forall c ty (m : mem O) A t d B X a b,
  fits ty (ext0 A) -> (ext0 A = 0 -> t = Upper -> ty <> U32) ->
  ext0 A = ext1 A -> vext B = ext0 A -> vext X = ext0 A ->
  mat_holds_on m A (stored t d) a -> vec_holds m B b -> vwritable X -> allocated m (vcells X) ->
  disjoint (mcells_on A (stored t d)) (vcells X) -> disjoint_or_aligned_v B X ->
  succeeds (trsv_in c ty A t d B X) m (fun _ m' =>
    (exists f, vec_holds m' X f /\
      forall i, i < ext0 A -> f i = typed_subst L c tX t d (ext0 A) a b f i)
    /\ changes_only m m' (vcells X)).
Proof.
  intros c ty m A t d B X a b Hfit H32 Hsq HB HX HA Hb Hw Hal HdA HdB.
  pose proof (alloc_vec_holds Hal) as H0. destruct t; unfold trsv_in.
  - apply (@ascend_ok O m X _ _ (typed_subst L c tX Lower d (ext0 A) a b)); auto.
    { intros; apply typed_ext; auto. }
    intros i m1 f Hi Hst Hrest.
    assert (mat_holds_on m1 A (stored Lower d) a) as HA1
      by (eapply mat_holds_frame; [exact HA|apply Hst|exact HdA]).
    apply wp_bind. eapply (@wp_vget_alias O) with (x := B); eauto; try lia.
    apply wp_bind. eapply wp_typed with (e := fun j => cbin L Times (a i j) (f j)); try lia.
    { intros j s Hj. rewrite run_bind, (run_mget (a := a) HA1) by (try split; simpl; lia).
      rewrite run_bind, (run_vget (f := f)) by (try apply Hst; lia). reflexivity. }
    rewrite Nat.sub_0_r. unfold typed_subst. destruct d; cbn [is_explicit sub_lo sub_len].
    + apply wp_bind. eapply (@wp_mget O); eauto; try lia. { split; simpl; [lia|discriminate]. }
      eapply (@wp_vset O); [exact Hw|exact Hst|lia|]. intros m2 H2. exact H2.
    + eapply (@wp_vset O); [exact Hw|exact Hst|lia|]. intros m2 H2. exact H2.
  - rewrite descending_start_ok by auto.
    replace (Z.to_nat (Z.of_nat (ext0 A) - 1 + 1)) with (ext0 A) by lia.
    apply (@descend_ok O m X _ _ (typed_subst L c tX Upper d (ext0 A) a b)); auto.
    { intros; apply typed_ext; auto. }
    intros i m1 f Hi Hst Hrest.
    assert (mat_holds_on m1 A (stored Upper d) a) as HA1
      by (eapply mat_holds_frame; [exact HA|apply Hst|exact HdA]).
    apply wp_bind. eapply (@wp_vget_alias O) with (x := B); eauto; try lia.
    apply wp_bind. unfold from_index. destruct Hfit as [Hf1 Hf2].
    rewrite wrap_id by lia. destruct (Z.ltb_spec (Z.of_nat i + 1) 0); [lia|].
    replace (Z.to_nat (Z.of_nat i + 1)) with (i + 1)%nat by lia.
    eapply wp_typed with (e := fun j => cbin L Times (a i j) (f j)); try lia.
    { intros j s Hj. rewrite run_bind, (run_mget (a := a) HA1) by (try split; simpl; lia).
      rewrite run_bind, (run_vget (f := f)) by (try apply Hst; lia). reflexivity. }
    unfold typed_subst. rewrite <- Hsq. destruct d; cbn [is_explicit sub_lo sub_len].
    + apply wp_bind. eapply (@wp_mget O); eauto; try lia. { split; simpl; [lia|discriminate]. }
      eapply (@wp_vset O); [exact Hw|exact Hst|lia|]. intros m2 H2. exact H2.
    + eapply (@wp_vset O); [exact Hw|exact Hst|lia|]. intros m2 H2. exact H2.
Qed.

Lemma typed_trsv_ok : forall ty (m : mem O) A t d B X a b,
  fits ty (ext0 A) -> (ext0 A = 0 -> t = Upper -> ty <> U32) ->
  ext0 A = ext1 A -> vext B = ext0 A -> vext X = ext0 A ->
  mat_holds_on m A (stored t d) a -> vec_holds m B b -> vwritable X -> allocated m (vcells X) ->
  disjoint (mcells_on A (stored t d)) (vcells X) -> disjoint_or_aligned_v B X ->
  succeeds (typed_trsv L z o tA tB tX ty A t d B X) m (fun _ m' =>
    (exists f, vec_holds m' X f /\
      forall i, i < ext0 A -> f i = typed_subst L (difference_type L tA tB tX) tX t d (ext0 A) a b f i)
    /\ changes_only m m' (vcells X)).
Proof.
  intros ty m A t d B X a b. intros.
  change (typed_trsv L z o tA tB tX ty A t d B X) with
    (match t with Lower => typed_trsv_lower L z o tA tB tX A d B X | Upper => typed_trsv_upper L z o tA tB tX ty A d B X end).
  replace (match t with Lower => typed_trsv_lower L z o tA tB tX A d B X | Upper => typed_trsv_upper L z o tA tB tX ty A d B X end)
    with (trsv_in (difference_type L tA tB tX) ty A t d B X) by (destruct t; reflexivity).
  now apply trsv_in_ok.
Qed.

(** The accumulator of the left matrix solve. *)
Definition left_acc (t : triangle) : ctype L := match t with Lower => tX | Upper => difference_type L tA tB tX end.

Lemma typed_left_columns : forall ty (A : mat O) t d B X,
  ext0 A = ext1 A -> ext1 B <= ext1 X ->
  same_effect (typed_trsm_left L z o tA tB tX ty A t d B X)
    (for_range 0 (ext1 B) (fun k => trsv_in (left_acc t) ty A t d (col B k) (col X k))).
Proof.
  intros ty A t d B X Hsq HX. unfold typed_trsm_left, typed_trsm_lower_left, typed_trsm_upper_left.
  destruct t; apply peq_for_range; intros k Hk; unfold trsv_in, left_acc.
  - apply peq_for_range. intros i Hi. rewrite mget_col by lia. apply peq_bind; [apply peq_refl|]. intros b.
    apply peq_bind.
    + apply peq_fold_range. intros j y Hj. apply peq_bind; [apply peq_refl|]. intros v. rewrite (@mget_col O X) by lia. apply peq_refl.
    + intros s. destruct d; simpl; [|rewrite mset_col by lia; apply peq_refl].
      apply peq_bind; [apply peq_refl|]. intros v. rewrite mset_col by lia. apply peq_refl.
  - apply peq_for_down. intros i Hi. rewrite mget_col by lia. apply peq_bind; [apply peq_refl|]. intros b.
    apply peq_bind.
    + apply peq_from_index. intros lo. rewrite Hsq. apply peq_fold_range. intros j y Hj. apply peq_bind; [apply peq_refl|]. intros v. rewrite (@mget_col O X) by lia. apply peq_refl.
    + intros s. destruct d; simpl; [|rewrite mset_col by lia; apply peq_refl].
      apply peq_bind; [apply peq_refl|]. intros v. rewrite mset_col by lia. apply peq_refl.
Qed.

Lemma typed_trsm_left_ok : forall ty (m : mem O) A t d B X a b,
  fits ty (ext0 A) -> (ext0 A = 0 -> t = Upper -> ty <> U32) ->
  ext0 A = ext1 A -> ext0 B = ext0 A -> ext0 X = ext0 A -> ext1 X = ext1 B ->
  mat_holds_on m A (stored t d) a -> mat_holds m B b -> mwritable X -> allocated m (mcells X) ->
  disjoint (mcells_on A (stored t d)) (mcells X) -> disjoint_or_aligned_m B X ->
  succeeds (typed_trsm_left L z o tA tB tX ty A t d B X) m (fun _ m' =>
    (exists x, mat_holds m' X x /\
      forall i j, i < ext0 X -> j < ext1 X ->
        x i j = typed_subst L (left_acc t) tX t d (ext0 A) a (fun k => b k j) (fun k => x k j) i)
    /\ changes_only m m' (mcells X)).
Proof.
  intros ty m A t d B X a b Hfit H32 Hsq HB0 HX0 HX1 HA HB Hw Hal HdA HdB.
  pose proof (alloc_mat_holds Hal) as H0.
  eapply peq_succeeds; [apply peq_sym, typed_left_columns; lia|]. rewrite <- HX1.
  eapply wp_conseq.
  { apply wp_columns with (c := contents_m m X)
      (R := fun j f => forall i, i < ext0 A -> f i = typed_subst L (left_acc t) tX t d (ext0 A) a (fun k => b k j) f i); auto.
    - intros j f g E H i Hi. rewrite <- E by lia. rewrite (H i Hi). apply typed_ext; auto.
      intros k Hk. apply E. destruct t; lia.
    - intros j m1 Hj Hc Hv.
      assert (vec_holds m1 (col B j) (fun k => b k j) /\ disjoint_or_aligned_v (col B j) (col X j)) as [HvB HdBv]
        by (eapply alias_col with (m := m) (x := contents_m m X); eauto; lia).
      eapply wp_conseq; [eapply trsv_in_ok with (a := a) (b := fun i => b i j); eauto|].
      + eapply mat_holds_frame; eauto.
      + apply col_writable; auto.
      + eapply vec_holds_alloc; eauto.
      + intros c Hc1 Hc2. eapply HdA; eauto. eapply col_cells; [|exact Hc2]. lia.
      + intros [] m2 H. exact H. }
  intros [] m1 ((x & Hx & HR) & Hc). split; auto. exists x; split; auto. intros i j Hi Hj. apply (HR j Hj i). lia.
Qed.

(** Rows of the right solve. *)
Definition rsolve_in (c : ctype L) (A : mat O) (t : triangle) (d : diagonal) (B X : vec O) : prog O unit :=
  let step j :=
    (fun lo hi => let! b := vget B j in
      let! s := fold_range lo hi (fun k s =>
                  let! xk := vget X k in let! akj := mget A k j in
                  Ret (cast L c (cbin L Minus s (cbin L Times xk akj)))) (cast L c b) in
      if is_explicit d then let! ajj := mget A j j in vset X j (cast L tX (cbin L Divide s ajj))
      else vset X j (cast L tX s)) in
  match t with
  | Upper => for_range 0 (ext1 A) (fun j => step j 0 j)
  | Lower => for_down (ext1 A) (fun j => step j (j + 1) (ext0 A))
  end.

Lemma rsolve_in_ok : forall c (m : mem O) A t d B X a b,
  ext0 A = ext1 A -> vext B = ext0 A -> vext X = ext0 A ->
  mat_holds_on m A (stored t d) a -> vec_holds m B b -> vwritable X -> allocated m (vcells X) ->
  disjoint (mcells_on A (stored t d)) (vcells X) -> disjoint_or_aligned_v B X ->
  succeeds (rsolve_in c A t d B X) m (fun _ m' =>
    (exists f, vec_holds m' X f /\
      forall j, j < ext0 A -> f j = typed_subst_r L c tX t d (ext0 A) a b f j) /\ changes_only m m' (vcells X)).
Proof.
  intros c m A t d B X a b Hsq HB HX HA Hb Hw Hal HdA HdB.
  pose proof (alloc_vec_holds Hal) as H0. destruct t; unfold rsolve_in; cbv zeta beta.
  - rewrite <- Hsq. apply (@descend_ok O m X _ _ (typed_subst_r L c tX Lower d (ext0 A) a b)); auto.
    { intros; apply typed_ext_r; auto. }
    intros i m1 f Hi Hst Hrest.
    assert (mat_holds_on m1 A (stored Lower d) a) as HA1
      by (eapply mat_holds_frame; [exact HA|apply Hst|exact HdA]).
    apply wp_bind. eapply (@wp_vget_alias O) with (x := B); eauto; try lia.
    apply wp_bind. eapply wp_typed with (e := fun j => cbin L Times (f j) (a j i)); try lia.
    { intros j s Hj. rewrite run_bind, (run_vget (f := f)) by (try apply Hst; lia).
      rewrite run_bind, (run_mget (a := a) HA1) by (try split; simpl; lia). reflexivity. }
    unfold typed_subst_r. destruct d; cbn [is_explicit sub_lo sub_len].
    + apply wp_bind. eapply (@wp_mget O); eauto; try lia. { split; simpl; [lia|discriminate]. }
      eapply (@wp_vset O); [exact Hw|exact Hst|lia|]. intros m2 H2. exact H2.
    + eapply (@wp_vset O); [exact Hw|exact Hst|lia|]. intros m2 H2. exact H2.
  - rewrite <- Hsq. apply (@ascend_ok O m X _ _ (typed_subst_r L c tX Upper d (ext0 A) a b)); auto.
    { intros; apply typed_ext_r; auto. }
    intros i m1 f Hi Hst Hrest.
    assert (mat_holds_on m1 A (stored Upper d) a) as HA1
      by (eapply mat_holds_frame; [exact HA|apply Hst|exact HdA]).
    apply wp_bind. eapply (@wp_vget_alias O) with (x := B); eauto; try lia.
    apply wp_bind. eapply wp_typed with (e := fun j => cbin L Times (f j) (a j i)); try lia.
    { intros j s Hj. rewrite run_bind, (run_vget (f := f)) by (try apply Hst; lia).
      rewrite run_bind, (run_mget (a := a) HA1) by (try split; simpl; lia). reflexivity. }
    rewrite Nat.sub_0_r. unfold typed_subst_r. destruct d; cbn [is_explicit sub_lo sub_len].
    + apply wp_bind. eapply (@wp_mget O); eauto; try lia. { split; simpl; [lia|discriminate]. }
      eapply (@wp_vset O); [exact Hw|exact Hst|lia|]. intros m2 H2. exact H2.
    + eapply (@wp_vset O); [exact Hw|exact Hst|lia|]. intros m2 H2. exact H2.
Qed.

Lemma typed_right_rows : forall ty (A : mat O) t d B X,
  (t = Lower -> fits (make_signed ty) (ext1 A)) -> ext0 B <= ext0 X ->
  same_effect (typed_trsm_right L z o tA tB tX ty A t d B X)
    (for_range 0 (ext0 B) (fun i => rsolve_in (difference_type L tA tB tX) A t d (row B i) (row X i))).
Proof.
  intros ty A t d B X Hfit HX. unfold typed_trsm_right, typed_trsm_lower_right, typed_trsm_upper_right.
  destruct t; apply peq_for_range; intros i Hi; unfold rsolve_in.
  - specialize (Hfit eq_refl). rewrite descending_start_signed_ok by auto.
    replace (Z.to_nat (Z.of_nat (ext1 A) - 1 + 1)) with (ext1 A) by lia.
    apply peq_for_down. intros j Hj. rewrite mget_row by lia. apply peq_bind; [apply peq_refl|]. intros b.
    destruct Hfit as [Hf1 Hf2]. pose proof (make_signed_max ty).
    rewrite wrap_id by lia. replace (Z.of_nat j + 1)%Z with (Z.of_nat (j + 1)) by lia. rewrite from_index_nat.
    apply peq_bind.
    + apply peq_fold_range. intros k y Hk. rewrite (@mget_row O X) by lia. apply peq_refl.
    + intros s. destruct d; simpl; [|rewrite mset_row by lia; apply peq_refl].
      apply peq_bind; [apply peq_refl|]. intros v. rewrite mset_row by lia. apply peq_refl.
  - apply peq_for_range. intros j Hj. rewrite mget_row by lia. apply peq_bind; [apply peq_refl|]. intros b.
    apply peq_bind.
    + apply peq_fold_range. intros k y Hk. rewrite (@mget_row O X) by lia. apply peq_refl.
    + intros s. destruct d; simpl; [|rewrite mset_row by lia; apply peq_refl].
      apply peq_bind; [apply peq_refl|]. intros v. rewrite mset_row by lia. apply peq_refl.
Qed.

Lemma typed_trsm_right_ok : forall ty (m : mem O) A t d B X a b,
  (t = Lower -> fits (make_signed ty) (ext0 A)) ->
  ext0 A = ext1 A -> ext1 B = ext0 A -> ext1 X = ext0 A -> ext0 X = ext0 B ->
  mat_holds_on m A (stored t d) a -> mat_holds m B b -> mwritable X -> allocated m (mcells X) ->
  disjoint (mcells_on A (stored t d)) (mcells X) -> disjoint_or_aligned_m B X ->
  succeeds (typed_trsm_right L z o tA tB tX ty A t d B X) m (fun _ m' =>
    (exists x, mat_holds m' X x /\
      forall i j, i < ext0 X -> j < ext1 X ->
        x i j = typed_subst_r L (difference_type L tA tB tX) tX t d (ext0 A) a (fun k => b i k) (fun k => x i k) j)
    /\ changes_only m m' (mcells X)).
Proof.
  intros ty m A t d B X a b Hfit Hsq HB1 HX1 HX0 HA HB Hw Hal HdA HdB.
  pose proof (alloc_mat_holds Hal) as H0.
  eapply peq_succeeds; [apply peq_sym, typed_right_rows; [rewrite <- Hsq; auto|lia]|]. rewrite <- HX0.
  eapply wp_conseq.
  { apply wp_rowwise with (c := contents_m m X)
      (R := fun i f => forall j, j < ext0 A -> f j = typed_subst_r L (difference_type L tA tB tX) tX t d (ext0 A) a (fun k => b i k) f j); auto.
    - intros j f g E H i Hi. rewrite <- E by lia. rewrite (H i Hi). apply typed_ext_r; auto.
      intros k Hk. apply E. destruct t; lia.
    - intros i m1 Hi Hc Hv.
      assert (vec_holds m1 (row B i) (fun k => b i k) /\ disjoint_or_aligned_v (row B i) (row X i)) as [HvB HdBv]
        by (eapply alias_row with (m := m) (x := contents_m m X); eauto; lia).
      eapply wp_conseq; [eapply rsolve_in_ok with (a := a) (b := fun k => b i k); eauto|].
      + eapply mat_holds_frame; eauto.
      + apply row_writable; auto.
      + eapply vec_holds_alloc; eauto.
      + intros c Hc1 Hc2. eapply HdA; eauto. eapply row_cells; [|exact Hc2]. lia.
      + intros [] m2 H. exact H. }
  intros [] m1 ((x & Hx & HR) & Hc). split; auto. exists x; split; auto. intros i j Hi Hj. apply (HR i Hi j). lia.
Qed.

(** Substitution determines the solution. *)
Lemma typed_unique : forall (c x : ctype L) t d n a (b f g : nat -> cval L),
  (forall i, i < n -> f i = typed_subst L c x t d n a b f i) ->
  (forall i, i < n -> g i = typed_subst L c x t d n a b g i) -> forall i, i < n -> f i = g i.
Proof.
  intros c x t d n a b f g Hf Hg. destruct t.
  - intros i. induction i as [i IH] using lt_wf_ind. intros Hi. rewrite Hf, Hg by auto.
    apply typed_ext; auto. intros k Hk. apply IH; lia.
  - assert (forall k i, n - i <= k -> i < n -> f i = g i) as H.
    { induction k as [|k IH]; intros i Hk Hi; [lia|]. rewrite Hf, Hg by auto.
      apply typed_ext; auto. intros l Hl. apply IH; lia. }
    intros i Hi. apply (H (n - i)); auto.
Qed.

(** A column of the matrix solve is the vector solve of the column, unless the accumulators differ. *)
Lemma typed_left_is_trsv : forall ty (m : mem O) A t d B X Y a b,
  t = Upper \/ tX = difference_type L tA tB tX ->
  fits ty (ext0 A) -> (ext0 A = 0 -> t = Upper -> ty <> U32) ->
  ext0 A = ext1 A -> ext0 B = ext0 A -> ext0 X = ext0 A -> ext1 X = ext1 B -> vext Y = ext0 A ->
  mat_holds_on m A (stored t d) a -> mat_holds m B b -> mwritable X -> allocated m (mcells X) ->
  disjoint (mcells_on A (stored t d)) (mcells X) -> disjoint_or_aligned_m B X ->
  vwritable Y -> allocated m (vcells Y) -> disjoint (mcells_on A (stored t d)) (vcells Y) ->
  disjoint (mcells B) (vcells Y) ->
  succeeds (typed_trsm_left L z o tA tB tX ty A t d B X) m (fun _ m1 =>
    exists x, mat_holds m1 X x /\
    forall j, j < ext1 X ->
    succeeds (typed_trsv L z o tA tB tX ty A t d (col B j) Y) m (fun _ m2 => vec_holds m2 Y (fun i => x i j))).
Proof.
  intros ty m A t d B X Y a b Hacc Hfit H32 Hsq HB0 HX0 HX1 HY HA HB Hw Hal HdA HdB HwY HalY HdY HdBY.
  eapply wp_conseq; [eapply typed_trsm_left_ok; eauto|].
  intros [] m1 ((x & Hx & Hs) & Hc). exists x. split; auto. intros j Hj.
  eapply wp_conseq; [eapply typed_trsv_ok with (a := a) (b := fun k => b k j); eauto|].
  - eapply col_holds; [exact HB|lia].
  - left. intros e He1 He2. eapply HdBY; [|exact He2]. eapply col_cells; [|exact He1]. lia.
  - intros [] m2 ((f & Hf & Hg) & _).
    assert (left_acc t = difference_type L tA tB tX) as E by (destruct Hacc as [-> | Hacc]; [reflexivity | destruct t; [exact Hacc|reflexivity]]).
    intros i Hi. destruct (Hf i Hi) as (v & Hv & Hv'). exists v. split; auto. rewrite Hv'.
    assert (forall k, k < ext0 A -> x k j = typed_subst L (difference_type L tA tB tX) tX t d (ext0 A) a (fun l => b l j) (fun l => x l j) k) as Hx'
      by (intros k Hk; rewrite <- E; apply Hs; lia).
    apply (@typed_unique _ _ _ _ _ _ _ f (fun l => x l j) Hg Hx' i). lia.
Qed.
End Pf.

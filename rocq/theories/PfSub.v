(** Triangular solves perform substitution in index order, whatever the arithmetic. *)
From Coq Require Import List Arith ZArith Lia Bool.
From Verif Require Import Mem Scalar View Spec SpecSub Wp Loops Sums Idx PfBlas1 Blas2 PfBlas2 PfTrsv PfRank Blas3 PfBlas3 PfTrsm.
Import ListNotations.
Set Implicit Arguments.
Local Open Scope sc_scope.

Section Pf.
Context {O : ops}.

Lemma diffs_ext : forall (s : O) lo n f g, (forall k, lo <= k < lo + n -> f k = g k) -> diffs s lo n f = diffs s lo n g.
Proof.
  intros s lo n f g; revert s lo; induction n as [|n IH]; intros s lo H; auto.
  unfold diffs in *. simpl. rewrite H by lia. apply IH. intros; apply H; lia.
Qed.

(** One unknown after the other, ascending. *)
Lemma ascend_ok : forall (m : mem O) X n body (val : (nat -> O) -> nat -> O),
  vext X = n -> vwritable X -> allocated m (vcells X) ->
  (forall i f g, i < n -> (forall k, k < i -> f k = g k) -> val f i = val g i) ->
  (forall i m1 f, i < n -> vst m m1 X f -> (forall k, i <= k < n -> f k = contents_v m X k) ->
     succeeds (body i) m1 (fun _ m2 => vst m m2 X (fset f i (val f i)))) ->
  succeeds (for_range 0 n body) m (fun _ m' =>
    (exists f, vec_holds m' X f /\ forall i, i < n -> f i = val f i) /\ changes_only m m' (vcells X)).
Proof.
  intros m X n body val HX Hw Hal Hext Hb. pose proof (alloc_vec_holds Hal) as H0.
  apply wp_for_range with (I := fun k m' => exists f, vst m m' X f /\
     (forall i, i < k -> f i = val f i) /\ (forall i, k <= i < n -> f i = contents_v m X i)); try lia.
  - exists (contents_v m X). split; auto using vst_init. split; auto; lia.
  - intros i m1 Hi (f & Hst & Hdone & Hrest). eapply wp_conseq; [apply (Hb i m1 f); auto; try lia|].
    intros [] m2 H2. exists (fset f i (val f i)). split; auto. split.
    + intros k Hk. unfold fset at 1. destruct (Nat.eqb_spec k i) as [->|].
      * apply Hext; [lia|]. intros; rewrite fset_other; auto; lia.
      * rewrite (Hdone k) by lia. apply Hext; [lia|]. intros; rewrite fset_other; auto; lia.
    + intros k Hk. rewrite fset_other by lia. apply Hrest; lia.
  - intros m1 (f & Hst & Hdone & _). split; [|apply Hst]. exists f; split; auto. apply Hst.
Qed.
(** Descending. *)
Lemma descend_ok : forall (m : mem O) X n body (val : (nat -> O) -> nat -> O),
  vext X = n -> vwritable X -> allocated m (vcells X) ->
  (forall i f g, i < n -> (forall k, i < k < n -> f k = g k) -> val f i = val g i) ->
  (forall i m1 f, i < n -> vst m m1 X f -> (forall k, k <= i -> f k = contents_v m X k) ->
     succeeds (body i) m1 (fun _ m2 => vst m m2 X (fset f i (val f i)))) ->
  succeeds (for_down n body) m (fun _ m' =>
    (exists f, vec_holds m' X f /\ forall i, i < n -> f i = val f i) /\ changes_only m m' (vcells X)).
Proof.
  intros m X n body val HX Hw Hal Hext Hb. pose proof (alloc_vec_holds Hal) as H0.
  apply wp_for_down with (I := fun k m' => exists f, vst m m' X f /\
     (forall i, k <= i < n -> f i = val f i) /\ (forall i, i < k -> f i = contents_v m X i)); try lia.
  - exists (contents_v m X). split; auto using vst_init. split; auto; lia.
  - intros i m1 Hi (f & Hst & Hdone & Hrest). eapply wp_conseq; [apply (Hb i m1 f); auto; try lia|].
    { intros; apply Hrest; lia. }
    intros [] m2 H2. exists (fset f i (val f i)). split; auto. split.
    + intros k Hk. unfold fset at 1. destruct (Nat.eqb_spec k i) as [->|].
      * apply Hext; [lia|]. intros; rewrite fset_other; auto; lia.
      * rewrite (Hdone k) by lia. apply Hext; [lia|]. intros; rewrite fset_other; auto; lia.
    + intros k Hk. rewrite fset_other by lia. apply Hrest; lia.
  - intros m1 (f & Hst & Hdone & _). split; [|apply Hst]. exists f; split; [apply Hst|]. intros; apply Hdone; lia.
Qed.

Lemma subst_ext : forall divide t d n a (b f g : nat -> O) i, i < n ->
  (forall k, match t with Lower => k < i | Upper => i < k < n end -> f k = g k) ->
  subst_value divide t d n a b f i = subst_value divide t d n a b g i.
Proof.
  intros divide t d n a b f g i Hi H. unfold subst_value.
  rewrite (@diffs_ext (b i) _ _ (fun j => a i j * f j) (fun j => a i j * g j)); auto.
  intros k Hk. rewrite H; auto. destruct t; simpl in *; lia.
Qed.
Lemma subst_ext_r : forall t d n a (b f g : nat -> O) i, i < n ->
  (forall k, match t with Upper => k < i | Lower => i < k < n end -> f k = g k) ->
  subst_value_r t d n a b f i = subst_value_r t d n a b g i.
Proof.
  intros t d n a b f g i Hi H. unfold subst_value_r.
  rewrite (@diffs_ext (b i) _ _ (fun j => f j * a j i) (fun j => g j * a j i)); auto.
  intros k Hk. rewrite H; auto. destruct t; simpl in *; lia.
Qed.

Lemma trsv_subst : forall ty (m : mem O) divide A t d B X a b,
  fits ty (ext0 A) -> (ext0 A = 0 -> t = Upper -> ty <> U32) ->
  ext0 A = ext1 A -> vext B = ext0 A -> vext X = ext0 A ->
  mat_holds_on m A (stored t d) a -> vec_holds m B b -> vwritable X -> allocated m (vcells X) ->
  disjoint (mcells_on A (stored t d)) (vcells X) -> disjoint_or_aligned_v B X ->
  succeeds (triangular_matrix_vector_solve_with ty divide A t d B X) m (fun _ m' =>
    (exists f, vec_holds m' X f /\
      forall i, i < ext0 A -> f i = subst_value divide t d (ext0 A) a b f i)
    /\ changes_only m m' (vcells X)).
Proof.
  intros ty m divide A t d B X a b Hfit H32 Hsq HB HX HA Hb Hw Hal HdA HdB.
  pose proof (alloc_vec_holds Hal) as H0. destruct t; simpl.
  - unfold trsv_lower. apply ascend_ok; auto.
    { intros; apply subst_ext; auto. }
    intros i m1 f Hi Hst Hrest.
    assert (mat_holds_on m1 A (stored Lower d) a) as HA1
      by (eapply mat_holds_frame; [exact HA|apply Hst|exact HdA]).
    apply wp_bind. eapply wp_vget_alias with (x := B); eauto; try lia.
    apply wp_bind. eapply wp_diff with (e := fun j => a i j * f j); try lia.
    { intros j s Hj. rewrite run_bind, (run_mget (a := a) HA1) by (try split; simpl; lia).
      rewrite run_bind, (run_vget (f := f)) by (try apply Hst; lia). reflexivity. }
    rewrite Nat.sub_0_r. unfold subst_value. simpl. destruct d; simpl.
    + apply wp_bind. eapply wp_mget; eauto; try lia. { split; simpl; [lia|discriminate]. }
      eapply wp_vset; [exact Hw|exact Hst|lia|]. intros m2 H2. exact H2.
    + eapply wp_vset; [exact Hw|exact Hst|lia|]. intros m2 H2. exact H2.
  - unfold trsv_upper. rewrite descending_start_ok by auto.
    replace (Z.to_nat (Z.of_nat (ext0 A) - 1 + 1)) with (ext0 A) by lia.
    apply descend_ok; auto.
    { intros; apply subst_ext; auto. }
    intros i m1 f Hi Hst Hrest.
    assert (mat_holds_on m1 A (stored Upper d) a) as HA1
      by (eapply mat_holds_frame; [exact HA|apply Hst|exact HdA]).
    apply wp_bind. eapply wp_vget_alias with (x := B); eauto; try lia.
    apply wp_bind. unfold from_index. destruct Hfit as [Hf1 Hf2].
    rewrite wrap_id by lia. destruct (Z.ltb_spec (Z.of_nat i + 1) 0); [lia|].
    replace (Z.to_nat (Z.of_nat i + 1)) with (i + 1)%nat by lia.
    eapply wp_diff with (e := fun j => a i j * f j); try lia.
    { intros j s Hj. rewrite run_bind, (run_mget (a := a) HA1) by (try split; simpl; lia).
      rewrite run_bind, (run_vget (f := f)) by (try apply Hst; lia). reflexivity. }
    unfold subst_value. rewrite <- Hsq. destruct d; simpl.
    + apply wp_bind. eapply wp_mget; eauto; try lia. { split; simpl; [lia|discriminate]. }
      eapply wp_vset; [exact Hw|exact Hst|lia|]. intros m2 H2. exact H2.
    + eapply wp_vset; [exact Hw|exact Hst|lia|]. intros m2 H2. exact H2.
Qed.

Lemma trsm_left_subst : forall ty (m : mem O) A t d B X a b,
  fits ty (ext0 A) -> (ext0 A = 0 -> t = Upper -> ty <> U32) ->
  ext0 A = ext1 A -> ext0 B = ext0 A -> ext0 X = ext0 A -> ext1 X = ext1 B ->
  mat_holds_on m A (stored t d) a -> mat_holds m B b -> mwritable X -> allocated m (mcells X) ->
  disjoint (mcells_on A (stored t d)) (mcells X) -> disjoint_or_aligned_m B X ->
  succeeds (triangular_matrix_matrix_left_solve ty A t d B X) m (fun _ m' =>
    (exists x, mat_holds m' X x /\
      forall i j, i < ext0 X -> j < ext1 X ->
        x i j = subst_value div t d (ext0 A) a (fun k => b k j) (fun k => x k j) i)
    /\ changes_only m m' (mcells X)).
Proof.
  intros ty m A t d B X a b Hfit H32 Hsq HB0 HX0 HX1 HA HB Hw Hal HdA HdB.
  pose proof (alloc_mat_holds Hal) as H0.
  eapply peq_succeeds; [apply peq_sym, trsm_left_columns; lia|]. rewrite <- HX1.
  eapply wp_conseq.
  { apply wp_columns with (c := contents_m m X)
      (R := fun j f => forall i, i < ext0 A -> f i = subst_value div t d (ext0 A) a (fun k => b k j) f i); auto.
    - intros j f g E H i Hi. rewrite <- E by lia. rewrite (H i Hi). apply subst_ext; auto.
      intros k Hk. apply E. destruct t; lia.
    - intros j m1 Hj Hc Hv.
      assert (vec_holds m1 (col B j) (fun k => b k j) /\ disjoint_or_aligned_v (col B j) (col X j)) as [HvB HdBv]
        by (eapply alias_col with (m := m) (x := contents_m m X); eauto; lia).
      eapply wp_conseq; [eapply trsv_subst with (a := a) (b := fun i => b i j); eauto|].
      + eapply mat_holds_frame; eauto.
      + apply col_writable; auto.
      + eapply vec_holds_alloc; eauto.
      + intros c Hc1 Hc2. eapply HdA; eauto. eapply col_cells; [|exact Hc2]. lia.
      + intros [] m2 H. exact H. }
  intros [] m1 ((x & Hx & HR) & Hc). split; auto. exists x; split; auto. intros i j Hi Hj. apply (HR j Hj i). lia.
Qed.

Lemma rsolve_subst : forall (m : mem O) A t d B X a b,
  ext0 A = ext1 A -> vext B = ext0 A -> vext X = ext0 A ->
  mat_holds_on m A (stored t d) a -> vec_holds m B b -> vwritable X -> allocated m (vcells X) ->
  disjoint (mcells_on A (stored t d)) (vcells X) -> disjoint_or_aligned_v B X ->
  succeeds (match t with Lower => rsolve_lower A d B X | Upper => rsolve_upper A d B X end) m (fun _ m' =>
    (exists f, vec_holds m' X f /\
      forall j, j < ext0 A -> f j = subst_value_r t d (ext0 A) a b f j) /\ changes_only m m' (vcells X)).
Proof.
  intros m A t d B X a b Hsq HB HX HA Hb Hw Hal HdA HdB.
  pose proof (alloc_vec_holds Hal) as H0. destruct t.
  - unfold rsolve_lower. rewrite <- Hsq. apply descend_ok; auto.
    { intros; apply subst_ext_r; auto. }
    intros i m1 f Hi Hst Hrest.
    assert (mat_holds_on m1 A (stored Lower d) a) as HA1
      by (eapply mat_holds_frame; [exact HA|apply Hst|exact HdA]).
    apply wp_bind. eapply wp_vget_alias with (x := B); eauto; try lia.
    apply wp_bind. eapply wp_diff with (e := fun j => f j * a j i); try lia.
    { intros j s Hj. rewrite run_bind, (run_vget (f := f)) by (try apply Hst; lia).
      rewrite run_bind, (run_mget (a := a) HA1) by (try split; simpl; lia). reflexivity. }
    unfold subst_value_r. destruct d; simpl.
    + apply wp_bind. eapply wp_mget; eauto; try lia. { split; simpl; [lia|discriminate]. }
      eapply wp_vset; [exact Hw|exact Hst|lia|]. intros m2 H2. exact H2.
    + eapply wp_vset; [exact Hw|exact Hst|lia|]. intros m2 H2. exact H2.
  - unfold rsolve_upper. rewrite <- Hsq. apply ascend_ok; auto.
    { intros; apply subst_ext_r; auto. }
    intros i m1 f Hi Hst Hrest.
    assert (mat_holds_on m1 A (stored Upper d) a) as HA1
      by (eapply mat_holds_frame; [exact HA|apply Hst|exact HdA]).
    apply wp_bind. eapply wp_vget_alias with (x := B); eauto; try lia.
    apply wp_bind. eapply wp_diff with (e := fun j => f j * a j i); try lia.
    { intros j s Hj. rewrite run_bind, (run_vget (f := f)) by (try apply Hst; lia).
      rewrite run_bind, (run_mget (a := a) HA1) by (try split; simpl; lia). reflexivity. }
    rewrite Nat.sub_0_r. unfold subst_value_r. destruct d; simpl.
    + apply wp_bind. eapply wp_mget; eauto; try lia. { split; simpl; [lia|discriminate]. }
      eapply wp_vset; [exact Hw|exact Hst|lia|]. intros m2 H2. exact H2.
    + eapply wp_vset; [exact Hw|exact Hst|lia|]. intros m2 H2. exact H2.
Qed.

Lemma trsm_right_subst : forall ty (m : mem O) A t d B X a b,
  (t = Lower -> fits (make_signed ty) (ext0 A)) ->
  ext0 A = ext1 A -> ext1 B = ext0 A -> ext1 X = ext0 A -> ext0 X = ext0 B ->
  mat_holds_on m A (stored t d) a -> mat_holds m B b -> mwritable X -> allocated m (mcells X) ->
  disjoint (mcells_on A (stored t d)) (mcells X) -> disjoint_or_aligned_m B X ->
  succeeds (triangular_matrix_matrix_right_solve ty A t d B X) m (fun _ m' =>
    (exists x, mat_holds m' X x /\
      forall i j, i < ext0 X -> j < ext1 X ->
        x i j = subst_value_r t d (ext0 A) a (fun k => b i k) (fun k => x i k) j)
    /\ changes_only m m' (mcells X)).
Proof.
  intros ty m A t d B X a b Hfit Hsq HB1 HX1 HX0 HA HB Hw Hal HdA HdB.
  pose proof (alloc_mat_holds Hal) as H0.
  eapply peq_succeeds; [apply peq_sym, trsm_right_rows; [rewrite <- Hsq; auto|lia]|]. rewrite <- HX0.
  eapply wp_conseq.
  { apply wp_rowwise with (c := contents_m m X)
      (R := fun i f => forall j, j < ext0 A -> f j = subst_value_r t d (ext0 A) a (fun k => b i k) f j); auto.
    - intros j f g E H i Hi. rewrite <- E by lia. rewrite (H i Hi). apply subst_ext_r; auto.
      intros k Hk. apply E. destruct t; lia.
    - intros i m1 Hi Hc Hv.
      assert (vec_holds m1 (row B i) (fun k => b i k) /\ disjoint_or_aligned_v (row B i) (row X i)) as [HvB HdBv]
        by (eapply alias_row with (m := m) (x := contents_m m X); eauto; lia).
      eapply wp_conseq; [eapply rsolve_subst with (a := a) (b := fun k => b i k); eauto|].
      + eapply mat_holds_frame; eauto.
      + apply row_writable; auto.
      + eapply vec_holds_alloc; eauto.
      + intros c Hc1 Hc2. eapply HdA; eauto. eapply row_cells; [|exact Hc2]. lia.
      + intros [] m2 H. exact H. }
  intros [] m1 ((x & Hx & HR) & Hc). split; auto. exists x; split; auto. intros i j Hi Hj. apply (HR i Hi j). lia.
Qed.
End Pf.

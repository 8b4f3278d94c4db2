(** Proofs about Blas3.v: triangular solves with several right-hand sides. *)
From Coq Require Import List Arith ZArith Lia Bool.
From Verif Require Import Mem Scalar View Spec Wp Loops Sums Idx PfBlas1 Blas2 PfBlas2 PfTrsv PfRank Blas3 PfBlas3.
Import ListNotations.
Set Implicit Arguments.
Local Open Scope sc_scope.

(** * Program equivalence *)
Section Peq.
Context {T : Type}.
Lemma peq_refl : forall A (p : prog T A), same_effect p p.
Proof. intros A p m; auto. Qed.
Lemma peq_sym : forall A (p q : prog T A), same_effect p q -> same_effect q p.
Proof. intros A p q H m; auto. Qed.
Lemma peq_trans : forall A (p q r : prog T A), same_effect p q -> same_effect q r -> same_effect p r.
Proof. intros A p q r H1 H2 m; rewrite H1; auto. Qed.
Lemma peq_bind : forall A B (p q : prog T A) (f g : A -> prog T B),
  same_effect p q -> (forall x, same_effect (f x) (g x)) -> same_effect (bind p f) (bind q g).
Proof. intros A B p q f g H1 H2 m. rewrite !run_bind, H1. destruct (run q m); auto. apply H2. Qed.
Lemma peq_for : forall lo n (f g : nat -> prog T unit),
  (forall i, lo <= i < lo + n -> same_effect (f i) (g i)) -> same_effect (for_ lo n f) (for_ lo n g).
Proof.
  intros lo n; revert lo; induction n as [|n IH]; intros lo f g H; simpl; [apply peq_refl|].
  apply peq_bind; [apply H; lia|]. intros _. apply IH. intros; apply H; lia.
Qed.
Lemma peq_for_range : forall lo hi (f g : nat -> prog T unit),
  (forall i, lo <= i < hi -> same_effect (f i) (g i)) -> same_effect (for_range lo hi f) (for_range lo hi g).
Proof. intros; unfold for_range; apply peq_for. intros; apply H; lia. Qed.
Lemma peq_for_down : forall n (f g : nat -> prog T unit),
  (forall i, i < n -> same_effect (f i) (g i)) -> same_effect (for_down n f) (for_down n g).
Proof.
  induction n as [|n IH]; intros f g H; simpl; [apply peq_refl|].
  apply peq_bind; [apply H; lia|]. intros _. apply IH. intros; apply H; lia.
Qed.
Lemma peq_fold : forall A lo n (f g : nat -> A -> prog T A) x,
  (forall i y, lo <= i < lo + n -> same_effect (f i y) (g i y)) -> same_effect (fold_ lo n f x) (fold_ lo n g x).
Proof.
  intros A lo n; revert lo; induction n as [|n IH]; intros lo f g x H; simpl; [apply peq_refl|].
  apply peq_bind; [apply H; lia|]. intros y. apply IH. intros; apply H; lia.
Qed.
Lemma peq_fold_range : forall A lo hi (f g : nat -> A -> prog T A) x,
  (forall i y, lo <= i < hi -> same_effect (f i y) (g i y)) -> same_effect (fold_range lo hi f x) (fold_range lo hi g x).
Proof. intros; unfold fold_range; apply peq_fold. intros; apply H; lia. Qed.
Lemma peq_when : forall (b : bool) (p q : prog T unit), same_effect p q -> same_effect (when b p) (when b q).
Proof. intros [] p q H; auto. apply peq_refl. Qed.
Lemma peq_if : forall A (b : bool) (p q p' q' : prog T A), same_effect p p' -> same_effect q q' ->
  same_effect (if b then p else q) (if b then p' else q').
Proof. intros A [] p q p' q' H1 H2; auto. Qed.
Lemma peq_succeeds : forall A (p q : prog T A) m Q, same_effect p q -> succeeds p m Q -> succeeds q m Q.
Proof. intros A p q m Q H (x & m' & E & HQ). exists x, m'; split; auto. rewrite <- H; auto. Qed.
End Peq.

Section Slices.
Context {O : ops}.

Lemma mget_col : forall (A : mat O) i j, j < ext1 A -> mget A i j = vget (col A j) i.
Proof.
  intros A i j Hj. unfold mget, vget. simpl. apply Nat.ltb_lt in Hj. rewrite Hj, andb_true_r. auto.
Qed.
Lemma mset_col : forall (A : mat O) i j v, j < ext1 A -> mset A i j v = vset (col A j) i v.
Proof.
  intros A i j v Hj. unfold mset, vset. simpl. apply Nat.ltb_lt in Hj. rewrite Hj, andb_true_r. auto.
Qed.
Lemma mget_row : forall (A : mat O) i j, i < ext0 A -> mget A i j = vget (row A i) j.
Proof.
  intros A i j Hj. unfold mget, vget. simpl. apply Nat.ltb_lt in Hj. rewrite Hj. auto.
Qed.
Lemma mset_row : forall (A : mat O) i j v, i < ext0 A -> mset A i j v = vset (row A i) j v.
Proof.
  intros A i j v Hj. unfold mset, vset. simpl. apply Nat.ltb_lt in Hj. rewrite Hj. auto.
Qed.

Lemma peq_from_index : forall A z (f g : nat -> prog O A),
  (forall i, same_effect (f i) (g i)) -> same_effect (from_index z f) (from_index z g).
Proof. intros A z f g H. unfold from_index. destruct (z <? 0)%Z; auto. apply peq_refl. Qed.

Lemma col_cells : forall (A : mat O) j, j < ext1 A -> forall c, vcells (col A j) c -> mcells A c.
Proof. intros A j Hj c (i & Hi & ->). exists i, j. split; [exact Hi|]. split; auto. split; [exact I|reflexivity]. Qed.
Lemma row_cells : forall (A : mat O) i, i < ext0 A -> forall c, vcells (row A i) c -> mcells A c.
Proof. intros A i Hi c (j & Hj & ->). exists i, j. split; auto. split; [exact Hj|]. split; [exact I|reflexivity]. Qed.
Lemma col_writable : forall (A : mat O) j, mwritable A -> j < ext1 A -> vwritable (col A j).
Proof.
  intros A j [Hd Hu] Hj. split; auto. simpl. intros i i' Hi Hi' E.
  destruct (Hu i j i' j Hi Hj Hi' Hj I I E); auto.
Qed.
Lemma row_writable : forall (A : mat O) i, mwritable A -> i < ext0 A -> vwritable (row A i).
Proof.
  intros A i [Hd Hu] Hi. split; auto. simpl. intros j j' Hj Hj' E.
  destruct (Hu i j i j' Hi Hj Hi Hj' I I E); auto.
Qed.
Lemma col_holds : forall (m : mem O) (A : mat O) a j, mat_holds m A a -> j < ext1 A ->
  vec_holds m (col A j) (fun i => a i j).
Proof. intros m A a j H Hj i Hi. exact (H i j Hi Hj I). Qed.
Lemma row_holds : forall (m : mem O) (A : mat O) a i, mat_holds m A a -> i < ext0 A ->
  vec_holds m (row A i) (fun j => a i j).
Proof. intros m A a i H Hi j Hj. exact (H i j Hi Hj I). Qed.

(** Treating a matrix column by column, each column according to [R j]. *)
Lemma wp_columns : forall (m : mem O) (C : mat O) c (R : nat -> (nat -> O) -> Prop) body,
  mwritable C -> mat_holds m C c ->
  (forall j f g, (forall i, i < ext0 C -> f i = g i) -> R j f -> R j g) ->
  (forall j m', j < ext1 C -> changes_only m m' (mcells C) -> vec_holds m' (col C j) (fun i => c i j) ->
     succeeds (body j) m' (fun _ m'' =>
       (exists f, vec_holds m'' (col C j) f /\ R j f) /\ changes_only m' m'' (vcells (col C j)))) ->
  succeeds (for_range 0 (ext1 C) body) m (fun _ m' =>
    (exists f, mat_holds m' C f /\ forall j, j < ext1 C -> R j (fun i => f i j)) /\ changes_only m m' (mcells C)).
Proof.
  intros m C c R body Hw HC HR Hb.
  apply wp_for_range with (I := fun k m' => changes_only m m' (mcells C) /\
     exists f, mat_holds m' C (fun i j => if j <? k then f i j else c i j) /\ forall j, j < k -> R j (fun i => f i j)); try lia.
  - split; [apply changes_only_refl|]. exists c. split; [|intros; lia].
    eapply mat_holds_on_ext; [|exact HC]. intros; bcase.
  - intros j m1 Hj (Hc1 & f & Hf & HRf).
    eapply wp_conseq; [apply Hb; auto; try lia|].
    + eapply vec_holds_ext; [|eapply col_holds; [exact Hf|lia]]. intros; bcase.
    + intros [] m2 ((h & Hh & HRh) & Hc2). split.
      { intros x Hx. rewrite Hc2, Hc1; auto. intros Hx'; apply Hx. eapply col_cells; [|exact Hx']. lia. }
      exists (fun i l => if l =? j then h i else f i l). split.
      * intros i l Hi Hl _. destruct (Nat.eq_dec l j) as [->|Hne].
        { destruct (Hh i Hi) as (v & Hv & Hv'). exists v; split; [exact Hv|]. bdec. exact Hv'. }
        destruct (Hf i l Hi Hl I) as (v & Hv & Hv'). exists v; split.
        { rewrite Hc2; auto. intros (i' & Hi' & E). change (maddr C i l = maddr C i' j) in E.
          destruct Hw as [_ Hu]. destruct (Hu i l i' j Hi Hl Hi' (proj2 Hj) I I E). lia. }
        rewrite Hv'. bcase.
      * intros l Hl. destruct (Nat.eq_dec l j) as [->|Hne].
        { eapply HR; [|exact HRh]. intros; bcase. }
        eapply HR; [|apply (HRf l); lia]. intros; bcase.
  - intros m1 (Hc1 & f & Hf & HRf). split; auto. exists f; split; auto.
    eapply mat_holds_on_ext; [|exact Hf]. intros; bcase.
Qed.

(** Treating a matrix row by row. *)
Lemma wp_rowwise : forall (m : mem O) (C : mat O) c (R : nat -> (nat -> O) -> Prop) body,
  mwritable C -> mat_holds m C c ->
  (forall i f g, (forall j, j < ext1 C -> f j = g j) -> R i f -> R i g) ->
  (forall i m', i < ext0 C -> changes_only m m' (mcells C) -> vec_holds m' (row C i) (fun j => c i j) ->
     succeeds (body i) m' (fun _ m'' =>
       (exists f, vec_holds m'' (row C i) f /\ R i f) /\ changes_only m' m'' (vcells (row C i)))) ->
  succeeds (for_range 0 (ext0 C) body) m (fun _ m' =>
    (exists f, mat_holds m' C f /\ forall i, i < ext0 C -> R i (fun j => f i j)) /\ changes_only m m' (mcells C)).
Proof.
  intros m C c R body Hw HC HR Hb.
  apply wp_for_range with (I := fun k m' => changes_only m m' (mcells C) /\
     exists f, mat_holds m' C (fun i j => if i <? k then f i j else c i j) /\ forall i, i < k -> R i (fun j => f i j)); try lia.
  - split; [apply changes_only_refl|]. exists c. split; [|intros; lia].
    eapply mat_holds_on_ext; [|exact HC]. intros; bcase.
  - intros j m1 Hj (Hc1 & f & Hf & HRf).
    eapply wp_conseq; [apply Hb; auto; try lia|].
    + eapply vec_holds_ext; [|eapply row_holds; [exact Hf|lia]]. intros; bcase.
    + intros [] m2 ((h & Hh & HRh) & Hc2). split.
      { intros x Hx. rewrite Hc2, Hc1; auto. intros Hx'; apply Hx. eapply row_cells; [|exact Hx']. lia. }
      exists (fun i l => if i =? j then h l else f i l). split.
      * intros l i Hl Hi _. destruct (Nat.eq_dec l j) as [->|Hne].
        { destruct (Hh i Hi) as (v & Hv & Hv'). exists v; split; [exact Hv|]. bdec. exact Hv'. }
        destruct (Hf l i Hl Hi I) as (v & Hv & Hv'). exists v; split.
        { rewrite Hc2; auto. intros (i' & Hi' & E). change (maddr C l i = maddr C j i') in E.
          destruct Hw as [_ Hu]. destruct (Hu l i j i' Hl Hi (proj2 Hj) Hi' I I E). lia. }
        rewrite Hv'. bcase.
      * intros l Hl. destruct (Nat.eq_dec l j) as [->|Hne].
        { eapply HR; [|exact HRh]. intros; bcase. }
        eapply HR; [|apply (HRf l); lia]. intros; bcase.
  - intros m1 (Hc1 & f & Hf & HRf). split; auto. exists f; split; auto.
    eapply mat_holds_on_ext; [|exact Hf]. intros; bcase.
Qed.

(** A right-hand side that is disjoint from, or aligned with, the output: its not yet overwritten
    columns (rows) keep their values. *)
Lemma alias_col : forall (m m' : mem O) (B X : mat O) b x k,
  mwritable X -> ext0 B = ext0 X -> ext1 B = ext1 X ->
  mat_holds m X x -> mat_holds m B b -> disjoint_or_aligned_m B X -> changes_only m m' (mcells X) ->
  k < ext1 X -> vec_holds m' (col X k) (fun i => x i k) ->
  vec_holds m' (col B k) (fun i => b i k) /\ disjoint_or_aligned_v (col B k) (col X k).
Proof.
  intros m m' B X b x k [Hd Hu] H0 H1 HX HB Hdis Hc Hk HX'. destruct Hdis as [Hdis|Hal].
  - split.
    + eapply vec_holds_frame; [eapply col_holds; [exact HB|lia]|exact Hc|].
      intros c Hc1 Hc2. eapply Hdis; [|exact Hc2]. eapply col_cells; [|exact Hc1]. lia.
    + left. intros c Hc1 Hc2. eapply Hdis; [eapply col_cells; [|exact Hc1]; lia|eapply col_cells; [|exact Hc2]; lia].
  - split.
    + intros i Hi. simpl in Hi. destruct (HB i k) as (v & Hv & Hv'); [lia|lia|exact I|].
      destruct (HX i k) as (w & Hw & Hw'); [lia|lia|exact I|].
      destruct (HX' i) as (u & Hu1 & Hu'); [simpl; lia|]. exists v; split; auto.
      change (m' (maddr B i k) = Some v). change (m' (maddr X i k) = Some u) in Hu1.
      simpl in Hu'. rewrite Hd in *. simpl in *. rewrite Hal in * by lia. congruence.
    + right. intros i Hi. simpl in Hi. apply (Hal i k); lia.
Qed.
Lemma alias_row : forall (m m' : mem O) (B X : mat O) b x k,
  mwritable X -> ext0 B = ext0 X -> ext1 B = ext1 X ->
  mat_holds m X x -> mat_holds m B b -> disjoint_or_aligned_m B X -> changes_only m m' (mcells X) ->
  k < ext0 X -> vec_holds m' (row X k) (fun i => x k i) ->
  vec_holds m' (row B k) (fun i => b k i) /\ disjoint_or_aligned_v (row B k) (row X k).
Proof.
  intros m m' B X b x k [Hd Hu] H0 H1 HX HB Hdis Hc Hk HX'. destruct Hdis as [Hdis|Hal].
  - split.
    + eapply vec_holds_frame; [eapply row_holds; [exact HB|lia]|exact Hc|].
      intros c Hc1 Hc2. eapply Hdis; [|exact Hc2]. eapply row_cells; [|exact Hc1]. lia.
    + left. intros c Hc1 Hc2. eapply Hdis; [eapply row_cells; [|exact Hc1]; lia|eapply row_cells; [|exact Hc2]; lia].
  - split.
    + intros i Hi. simpl in Hi. destruct (HB k i) as (v & Hv & Hv'); [lia|lia|exact I|].
      destruct (HX k i) as (w & Hw & Hw'); [lia|lia|exact I|].
      destruct (HX' i) as (u & Hu1 & Hu'); [simpl; lia|]. exists v; split; auto.
      change (m' (maddr B k i) = Some v). change (m' (maddr X k i) = Some u) in Hu1.
      simpl in Hu'. rewrite Hd in *. simpl in *. rewrite Hal in * by lia. congruence.
    + right. intros i Hi. simpl in Hi. apply (Hal k i); lia.
Qed.

(** * Left solve *)
Lemma trsm_left_columns : forall ty (A : mat O) t d B X,
  ext0 A = ext1 A -> ext1 B <= ext1 X ->
  same_effect (triangular_matrix_matrix_left_solve ty A t d B X)
    (for_range 0 (ext1 B) (fun k => triangular_matrix_vector_solve ty A t d (col B k) (col X k))).
Proof.
  intros ty A t d B X Hsq HX. unfold triangular_matrix_matrix_left_solve, trsm_lower_left, trsm_upper_left.
  destruct t; apply peq_for_range; intros k Hk;
    unfold triangular_matrix_vector_solve; simpl; unfold trsv_lower, trsv_upper.
  - apply peq_for_range. intros i Hi. rewrite mget_col by lia. apply peq_bind; [apply peq_refl|]. intros b.
    apply peq_bind.
    + apply peq_fold_range. intros j y Hj. apply peq_bind; [apply peq_refl|]. intros v. rewrite (@mget_col X) by lia. apply peq_refl.
    + intros s. destruct d; simpl; [|rewrite mset_col by lia; apply peq_refl].
      apply peq_bind; [apply peq_refl|]. intros v. rewrite mset_col by lia. apply peq_refl.
  - apply peq_for_down. intros i Hi. rewrite mget_col by lia. apply peq_bind; [apply peq_refl|]. intros b.
    apply peq_bind.
    + apply peq_from_index. intros lo. rewrite Hsq. apply peq_fold_range. intros j y Hj. apply peq_bind; [apply peq_refl|]. intros v. rewrite (@mget_col X) by lia. apply peq_refl.
    + intros s. destruct d; simpl; [|rewrite mset_col by lia; apply peq_refl].
      apply peq_bind; [apply peq_refl|]. intros v. rewrite mset_col by lia. apply peq_refl.
Qed.

Lemma trsm_left_ok : forall ty (m : mem O) A t d B X a b,
  ring_laws O ->
  fits ty (ext0 A) -> (ext0 A = 0 -> t = Upper -> ty <> U32) ->
  ext0 A = ext1 A -> ext0 B = ext0 A -> ext0 X = ext0 A -> ext1 X = ext1 B ->
  mat_holds_on m A (stored t d) a -> mat_holds m B b -> mwritable X -> allocated m (mcells X) ->
  disjoint (mcells_on A (stored t d)) (mcells X) -> disjoint_or_aligned_m B X ->
  div_ok div d (ext0 A) a ->
  succeeds (triangular_matrix_matrix_left_solve ty A t d B X) m (fun _ m' =>
    (exists x, mat_holds m' X x /\
      forall i j, i < ext0 X -> j < ext1 X -> bigsum (ext0 A) (fun k => tri_of t d a i k * x k j) = b i j)
    /\ changes_only m m' (mcells X)).
Proof.
  intros ty m A t d B X a b L Hfit H32 Hsq HB0 HX0 HX1 HA HB Hw Hal HdA HdB Hdiv.
  pose proof (alloc_mat_holds Hal) as H0.
  eapply peq_succeeds; [apply peq_sym, trsm_left_columns; lia|]. rewrite <- HX1.
  eapply wp_conseq.
  { apply wp_columns with (c := contents_m m X)
      (R := fun j f => forall i, i < ext0 A -> bigsum (ext0 A) (fun k => tri_of t d a i k * f k) = b i j); auto.
    - intros j f g E H i Hi. rewrite <- (H i Hi). apply sum_from_ext. intros; rewrite E; auto; lia.
    - intros j m1 Hj Hc Hv.
      assert (vec_holds m1 (col B j) (fun k => b k j) /\ disjoint_or_aligned_v (col B j) (col X j)) as [HvB HdBv]
        by (eapply alias_col with (m := m) (x := contents_m m X); eauto; lia).
      eapply wp_conseq; [eapply trsv_ok with (a := a) (b := fun i => b i j); eauto|].
      + eapply mat_holds_frame; eauto.
      + apply col_writable; auto.
      + eapply vec_holds_alloc; eauto.
      + intros c Hc1 Hc2. eapply HdA; eauto. eapply col_cells; [|exact Hc2]. lia.
      + intros [] m2 H. exact H. }
  intros [] m1 ((x & Hx & HR) & Hc). split; auto. exists x; split; auto. intros; apply HR; auto; lia.
Qed.

(** * Right solve: one row at a time *)
Definition rsolve_upper (A : mat O) (d : diagonal) (B X : vec O) : prog O unit :=
  for_range 0 (ext1 A) (fun j =>
    bind (vget B j) (fun b =>
    bind (fold_range 0 j (fun k t => bind (vget X k) (fun xk => bind (mget A k j) (fun akj => Ret (t - xk * akj)))) b) (fun t =>
    if is_explicit d then bind (mget A j j) (fun ajj => vset X j (t / ajj)) else vset X j t))).
Definition rsolve_lower (A : mat O) (d : diagonal) (B X : vec O) : prog O unit :=
  for_down (ext1 A) (fun j =>
    bind (vget B j) (fun b =>
    bind (fold_range (j + 1) (ext0 A) (fun k t => bind (vget X k) (fun xk => bind (mget A k j) (fun akj => Ret (t - xk * akj)))) b) (fun t =>
    if is_explicit d then bind (mget A j j) (fun ajj => vset X j (t / ajj)) else vset X j t))).

Lemma rsolve_upper_ok : forall (m : mem O) A d B X a b,
  ring_laws O ->
  ext0 A = ext1 A -> vext B = ext0 A -> vext X = ext0 A ->
  mat_holds_on m A (stored Upper d) a -> vec_holds m B b -> vwritable X -> allocated m (vcells X) ->
  disjoint (mcells_on A (stored Upper d)) (vcells X) -> disjoint_or_aligned_v B X ->
  div_ok_r div d (ext0 A) a ->
  succeeds (rsolve_upper A d B X) m (fun _ m' =>
    (exists f, vec_holds m' X f /\
      forall j, j < ext0 A -> bigsum (ext0 A) (fun k => f k * tri_of Upper d a k j) = b j) /\ changes_only m m' (vcells X)).
Proof.
  intros m A d B X a b L Hsq HB HX HA Hb Hw Hal HdA HdB Hdiv.
  pose proof (alloc_vec_holds Hal) as H0. pose proof (ring_add L) as LA.
  unfold rsolve_upper.
  apply wp_for_range with (I := fun k m' => exists f, vst m m' X f /\
     (forall i, i < k -> bigsum (ext0 A) (fun k => f k * tri_of Upper d a k i) = b i) /\
     (forall i, k <= i < ext0 A -> f i = contents_v m X i)); try lia.
  - exists (contents_v m X). split; auto using vst_init. split; auto; lia.
  - intros i m1 Hi (f & Hst & Hdone & Hrest).
    assert (mat_holds_on m1 A (stored Upper d) a) as HA1
      by (eapply mat_holds_frame; [exact HA|apply Hst|exact HdA]).
    apply wp_bind. eapply wp_vget_alias with (x := B); eauto; try lia.
    { apply Hrest; lia. }
    apply wp_bind. eapply wp_diff with (e := fun j => f j * a j i); try lia.
    { intros j s Hj. rewrite run_bind, (run_vget (f := f)) by (try apply Hst; lia).
      rewrite run_bind, (run_mget (a := a) HA1) by (try split; simpl; lia). reflexivity. }
    rewrite Nat.sub_0_r.
    set (t := diff_from (b i) 0 i (fun j => f j * a j i)).
    assert (forall v, diag_term_r d v (a i i) = t -> forall m2, vst m m2 X (fset f i v) ->
       exists f0, vst m m2 X f0 /\
        (forall k, k < S i -> bigsum (ext0 A) (fun l => f0 l * tri_of Upper d a l k) = b k) /\
        (forall k, S i <= k < ext0 A -> f0 k = contents_v m X k)) as K.
    { intros v Hv m2 H2. exists (fset f i v). split; auto. split.
      - intros k Hk. rewrite (tri_right_upper L) by lia.
        rewrite (@sum_from_ext O zero 0 k _ (fun j => f j * a j k))
          by (intros; rewrite fset_other; auto; lia).
        unfold fset at 1. destruct (Nat.eqb_spec k i) as [->|].
        + rewrite Hv. apply diff_sum; auto.
        + rewrite <- (Hdone k) by lia. rewrite (tri_right_upper L) by lia. auto.
      - intros k Hk. rewrite fset_other by lia. apply Hrest; lia. }
    destruct d; simpl.
    + apply wp_bind. eapply wp_mget; eauto; try lia. { split; simpl; [lia|discriminate]. }
      eapply wp_vset; [exact Hw|exact Hst|lia|]. intros m2 H2. eapply K; [|exact H2]. simpl. apply Hdiv; auto; lia.
    + eapply wp_vset; [exact Hw|exact Hst|lia|]. intros m2 H2. eapply K; [|exact H2]. reflexivity.
  - intros m1 (f & Hst & Hdone & _). split; [|apply Hst]. exists f; split; [apply Hst|]. intros; apply Hdone; lia.
Qed.

Lemma rsolve_lower_ok : forall (m : mem O) A d B X a b,
  ring_laws O ->
  ext0 A = ext1 A -> vext B = ext0 A -> vext X = ext0 A ->
  mat_holds_on m A (stored Lower d) a -> vec_holds m B b -> vwritable X -> allocated m (vcells X) ->
  disjoint (mcells_on A (stored Lower d)) (vcells X) -> disjoint_or_aligned_v B X ->
  div_ok_r div d (ext0 A) a ->
  succeeds (rsolve_lower A d B X) m (fun _ m' =>
    (exists f, vec_holds m' X f /\
      forall j, j < ext0 A -> bigsum (ext0 A) (fun k => f k * tri_of Lower d a k j) = b j) /\ changes_only m m' (vcells X)).
Proof.
  intros m A d B X a b L Hsq HB HX HA Hb Hw Hal HdA HdB Hdiv.
  pose proof (alloc_vec_holds Hal) as H0. pose proof (ring_add L) as LA.
  unfold rsolve_lower.
  apply wp_for_down with (I := fun k m' => exists f, vst m m' X f /\
     (forall i, k <= i < ext0 A -> bigsum (ext0 A) (fun k => f k * tri_of Lower d a k i) = b i) /\
     (forall i, i < k -> f i = contents_v m X i)); try lia.
  - exists (contents_v m X). split; auto using vst_init. split; auto; lia.
  - intros i m1 Hi (f & Hst & Hdone & Hrest).
    assert (mat_holds_on m1 A (stored Lower d) a) as HA1
      by (eapply mat_holds_frame; [exact HA|apply Hst|exact HdA]).
    apply wp_bind. eapply wp_vget_alias with (x := B); eauto; try lia.
    apply wp_bind. eapply wp_diff with (e := fun j => f j * a j i); try lia.
    { intros j s Hj. rewrite run_bind, (run_vget (f := f)) by (try apply Hst; lia).
      rewrite run_bind, (run_mget (a := a) HA1) by (try split; simpl; lia). reflexivity. }
    set (t := diff_from (b i) (i + 1) (ext0 A - (i + 1)) (fun j => f j * a j i)).
    assert (forall v, diag_term_r d v (a i i) = t -> forall m2, vst m m2 X (fset f i v) ->
       exists f0, vst m m2 X f0 /\
        (forall k, i <= k < ext0 A -> bigsum (ext0 A) (fun l => f0 l * tri_of Lower d a l k) = b k) /\
        (forall k, k < i -> f0 k = contents_v m X k)) as K.
    { intros v Hv m2 H2. exists (fset f i v). split; auto. split.
      - intros k Hk. rewrite (tri_right_lower L) by lia.
        rewrite (@sum_from_ext O zero (k + 1) _ _ (fun j => f j * a j k))
          by (intros; rewrite fset_other; auto; lia).
        unfold fset at 1. destruct (Nat.eqb_spec k i) as [->|].
        + rewrite Hv. apply diff_sum; auto.
        + rewrite <- (Hdone k) by lia. rewrite (tri_right_lower L) by lia. auto.
      - intros k Hk. rewrite fset_other by lia. apply Hrest; lia. }
    destruct d; simpl.
    + apply wp_bind. eapply wp_mget; eauto; try lia. { split; simpl; [lia|discriminate]. }
      eapply wp_vset; [exact Hw|exact Hst|lia|]. intros m2 H2. eapply K; [|exact H2]. simpl. apply Hdiv; auto; lia.
    + eapply wp_vset; [exact Hw|exact Hst|lia|]. intros m2 H2. eapply K; [|exact H2]. reflexivity.
  - intros m1 (f & Hst & Hdone & _). split; [|apply Hst]. exists f; split; [apply Hst|]. intros; apply Hdone; lia.
Qed.

(** The descending loop of the lower right solve starts at n-1 when n fits in the signed type. *)
Lemma descending_start_signed_ok : forall t n, fits (make_signed t) n ->
  descending_start_signed t n = (Z.of_nat n - 1)%Z.
Proof.
  intros t n [H1 H2]. unfold descending_start_signed.
  rewrite (@wrap_id (make_signed t) (Z.of_nat n)) by lia. destruct (Nat.eq_dec n 0) as [->|Hn].
  - destruct t; reflexivity.
  - rewrite (@wrap_id (promote (make_signed t))). 2: { pose proof (promote_max (make_signed t)). lia. }
    rewrite wrap_id; auto. lia.
Qed.
Lemma make_signed_max : forall t, (max_of (make_signed t) <= max_of t)%Z.
Proof. intros []; vm_compute; congruence. Qed.

Lemma trsm_right_rows : forall ty (A : mat O) t d B X,
  (t = Lower -> fits (make_signed ty) (ext1 A)) -> ext0 B <= ext0 X ->
  same_effect (triangular_matrix_matrix_right_solve ty A t d B X)
    (for_range 0 (ext0 B) (fun i => match t with Lower => rsolve_lower A d (row B i) (row X i)
                                               | Upper => rsolve_upper A d (row B i) (row X i) end)).
Proof.
  intros ty A t d B X Hfit HX. unfold triangular_matrix_matrix_right_solve, trsm_lower_right, trsm_upper_right.
  destruct t; apply peq_for_range; intros i Hi; unfold rsolve_lower, rsolve_upper.
  - specialize (Hfit eq_refl). rewrite descending_start_signed_ok by auto.
    replace (Z.to_nat (Z.of_nat (ext1 A) - 1 + 1)) with (ext1 A) by lia.
    apply peq_for_down. intros j Hj. rewrite mget_row by lia. apply peq_bind; [apply peq_refl|]. intros b.
    destruct Hfit as [Hf1 Hf2]. pose proof (make_signed_max ty).
    rewrite wrap_id by lia. replace (Z.of_nat j + 1)%Z with (Z.of_nat (j + 1)) by lia. rewrite from_index_nat.
    apply peq_bind.
    + apply peq_fold_range. intros k y Hk. rewrite (@mget_row X) by lia. apply peq_refl.
    + intros s. destruct d; simpl; [|rewrite mset_row by lia; apply peq_refl].
      apply peq_bind; [apply peq_refl|]. intros v. rewrite mset_row by lia. apply peq_refl.
  - apply peq_for_range. intros j Hj. rewrite mget_row by lia. apply peq_bind; [apply peq_refl|]. intros b.
    apply peq_bind.
    + apply peq_fold_range. intros k y Hk. rewrite (@mget_row X) by lia. apply peq_refl.
    + intros s. destruct d; simpl; [|rewrite mset_row by lia; apply peq_refl].
      apply peq_bind; [apply peq_refl|]. intros v. rewrite mset_row by lia. apply peq_refl.
Qed.

Lemma trsm_right_ok : forall ty (m : mem O) A t d B X a b,
  ring_laws O ->
  (t = Lower -> fits (make_signed ty) (ext0 A)) ->
  ext0 A = ext1 A -> ext1 B = ext0 A -> ext1 X = ext0 A -> ext0 X = ext0 B ->
  mat_holds_on m A (stored t d) a -> mat_holds m B b -> mwritable X -> allocated m (mcells X) ->
  disjoint (mcells_on A (stored t d)) (mcells X) -> disjoint_or_aligned_m B X ->
  div_ok_r div d (ext0 A) a ->
  succeeds (triangular_matrix_matrix_right_solve ty A t d B X) m (fun _ m' =>
    (exists x, mat_holds m' X x /\
      forall i j, i < ext0 X -> j < ext1 X -> bigsum (ext0 A) (fun k => x i k * tri_of t d a k j) = b i j)
    /\ changes_only m m' (mcells X)).
Proof.
  intros ty m A t d B X a b L Hfit Hsq HB1 HX1 HX0 HA HB Hw Hal HdA HdB Hdiv.
  pose proof (alloc_mat_holds Hal) as H0.
  eapply peq_succeeds; [apply peq_sym, trsm_right_rows; [rewrite <- Hsq; auto|lia]|]. rewrite <- HX0.
  eapply wp_conseq.
  { apply wp_rowwise with (c := contents_m m X)
      (R := fun i f => forall j, j < ext0 A -> bigsum (ext0 A) (fun k => f k * tri_of t d a k j) = b i j); auto.
    - intros j f g E H i Hi. rewrite <- (H i Hi). apply sum_from_ext. intros; rewrite E; auto; lia.
    - intros i m1 Hi Hc Hv.
      assert (vec_holds m1 (row B i) (fun k => b i k) /\ disjoint_or_aligned_v (row B i) (row X i)) as [HvB HdBv]
        by (eapply alias_row with (m := m) (x := contents_m m X); eauto; lia).
      assert (mat_holds_on m1 A (stored t d) a) as HA1 by (eapply mat_holds_frame; eauto).
      assert (disjoint (mcells_on A (stored t d)) (vcells (row X i))) as HdA1.
      { intros c Hc1 Hc2. eapply HdA; eauto. eapply row_cells; [|exact Hc2]. lia. }
      pose proof (row_writable Hw Hi) as Hwr. pose proof (vec_holds_alloc Hv) as Halr.
      destruct t.
      + eapply wp_conseq; [eapply rsolve_lower_ok with (a := a) (b := fun j => b i j); eauto|]. intros [] m2 H. exact H.
      + eapply wp_conseq; [eapply rsolve_upper_ok with (a := a) (b := fun j => b i j); eauto|]. intros [] m2 H. exact H. }
  intros [] m1 ((x & Hx & HR) & Hc). split; auto. exists x; split; auto. intros; apply HR; auto; lia.
Qed.

End Slices.

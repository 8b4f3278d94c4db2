(** Proofs about Blas3.v: matrix-matrix products and rank-k / rank-2k updates. *)
From Coq Require Import List Arith ZArith Lia Bool.
From Verif Require Import Mem Scalar View Spec Wp Loops Sums Idx PfBlas1 Blas2 PfBlas2 PfTrsv PfRank Blas3.
Import ListNotations.
Set Implicit Arguments.
Local Open Scope sc_scope.

(** * Index arithmetic *)
Lemma k_upper_ok : forall ty d i, (Z.of_nat i <= max_of I64)%Z ->
  Z.to_nat (k_upper ty d i + 1) = if is_explicit d then (i + 1)%nat else i.
Proof.
  intros ty d i Hi. unfold k_upper.
  assert (max_of I64 <= max_of (with_ptrdiff ty))%Z as Hp by (destruct ty; vm_compute; congruence).
  destruct d; simpl is_explicit; cbv iota.
  - rewrite (@wrap_id (with_ptrdiff ty)), wrap_id by lia. lia.
  - destruct (Nat.eq_dec i 0) as [->|].
    + destruct ty; reflexivity.
    + rewrite (@wrap_id (with_ptrdiff ty)), wrap_id by lia. lia.
Qed.

Lemma k_lower_ok : forall ty d i n, fits ty n -> i < n ->
  k_lower ty d i = Z.of_nat (if is_explicit d then i else (i + 1)%nat).
Proof.
  intros ty d i n [H1 H2] Hi. unfold k_lower. destruct d; simpl; rewrite wrap_id by lia; lia.
Qed.

Section Pf.
Context {O : ops}.

Lemma from_index_nat : forall A n (f : nat -> prog O A), from_index (Z.of_nat n) f = f n.
Proof.
  intros. unfold from_index. destruct (Z.ltb_spec (Z.of_nat n) 0); [lia|]. rewrite Nat2Z.id; auto.
Qed.

(** Reading a matrix that does not overlap the output. *)
Lemma wp_mget_in : forall (m m' : mem O) (A C : mat O) (P PC : nat -> nat -> Prop) a g i j (Q : O -> mem O -> Prop),
  mat_holds_on m A P a -> disjoint (mcells_on A P) (mcells_on C PC) -> mst m m' C PC g ->
  i < ext0 A -> j < ext1 A -> P i j -> Q (a i j) m' -> succeeds (mget A i j) m' Q.
Proof.
  intros m m' A C P PC a g i j Q HA Hd Hst Hi Hj HP HQ. eapply wp_mget; eauto.
  eapply mat_holds_frame; [exact HA|apply Hst|exact Hd].
Qed.

Lemma fset2_fset2 : forall T (f : nat -> nat -> T) i j v w k l,
  fset2 (fset2 f i j v) i j w k l = fset2 f i j w k l.
Proof. intros; unfold fset2; destruct ((k =? i) && (l =? j)); auto. Qed.

(** Accumulating after the element has been set. *)
Lemma wp_acc_set : forall (m0 m : mem O) (C : mat O) (P : nat -> nat -> Prop) g i j s lo hi (e : nat -> O) body (Q : unit -> mem O -> Prop),
  lo <= hi -> mst m0 m C P (fset2 g i j s) ->
  (forall k m' g' (Q : unit -> mem O -> Prop), lo <= k < hi -> mst m0 m' C P g' ->
     (forall m'', mst m0 m'' C P (fset2 g' i j (g' i j + e k)) -> Q tt m'') -> succeeds (body k) m' Q) ->
  (forall m', mst m0 m' C P (fset2 g i j (sum_from s lo (hi - lo) e)) -> Q tt m') ->
  succeeds (for_range lo hi body) m Q.
Proof.
  intros m0 m C P g i j s lo hi e body Q Hl Hst Hb HQ. eapply wp_conseq.
  { apply wp_acc_m with (i := i) (j := j) (e := e); eauto. }
  intros [] m' H. apply HQ. eapply mst_ext; [|exact H]. intros k l _ _ _.
  rewrite fset2_fset2, fset2_same; auto.
Qed.

(** * General products *)
Lemma gemm_ok : forall (m : mem O) A B C a b,
  ext0 C = ext0 A -> ext1 A = ext0 B -> ext1 C = ext1 B ->
  mat_holds m A a -> mat_holds m B b -> mwritable C -> allocated m (mcells C) ->
  disjoint (mcells A) (mcells C) -> disjoint (mcells B) (mcells C) ->
  succeeds (matrix_product A B C) m (fun _ m' =>
    mat_holds m' C (fun i j => bigsum (ext1 A) (fun k => a i k * b k j)) /\ changes_only m m' (mcells C)).
Proof.
  intros m A B C a b H1 H2 H3 HA HB Hw Hal HdA HdB.
  pose proof (alloc_mat_holds Hal) as H0. eapply wp_conseq.
  { unfold matrix_product. apply wp_rows with (m0 := m) (C := C) (P := all2) (c0 := contents_m m C)
      (f := fun i j => bigsum (ext1 A) (fun k => a i k * b k j))
      (lo := fun _ => 0) (hi := fun _ => ext1 C); auto using mst_init; try lia.
    intros i j m' g Hi Hj Hst Hg. apply wp_bind.
    eapply wp_mset; [exact Hw|exact Hst|lia|lia|exact I|]. intros m1 Hst1.
    eapply wp_acc_set with (e := fun k => a i k * b k j); [lia|exact Hst1| |].
    - intros k m2 g' Q Hk Hst2 HQ.
      apply wp_bind. eapply wp_mget_in with (A := A); eauto; try lia; try exact I.
      apply wp_bind. eapply wp_mget_in with (A := B); eauto; try lia; try exact I.
      eapply wp_macc_add; eauto; try lia; exact I.
    - intros m2 Hst2. rewrite Nat.sub_0_r in Hst2. exact Hst2. }
  intros [] m' H. eapply mst_done; [exact H|]. intros; bcase.
Qed.

Lemma gemm_upd_ok : forall (m : mem O) A B E C a b e,
  ext0 C = ext0 A -> ext1 A = ext0 B -> ext1 C = ext1 B -> ext0 E = ext0 C -> ext1 E = ext1 C ->
  mat_holds m A a -> mat_holds m B b -> mat_holds m E e -> mwritable C -> allocated m (mcells C) ->
  disjoint (mcells A) (mcells C) -> disjoint (mcells B) (mcells C) -> disjoint_or_aligned_m E C ->
  succeeds (matrix_product_upd A B E C) m (fun _ m' =>
    mat_holds m' C (fun i j => sum_from (e i j) 0 (ext1 A) (fun k => a i k * b k j)) /\ changes_only m m' (mcells C)).
Proof.
  intros m A B E C a b e H1 H2 H3 H4 H5 HA HB HE Hw Hal HdA HdB HdE.
  pose proof (alloc_mat_holds Hal) as H0. eapply wp_conseq.
  { unfold matrix_product_upd. apply wp_rows with (m0 := m) (C := C) (P := all2) (c0 := contents_m m C)
      (f := fun i j => sum_from (e i j) 0 (ext1 A) (fun k => a i k * b k j))
      (lo := fun _ => 0) (hi := fun _ => ext1 C); auto using mst_init; try lia.
    intros i j m' g Hi Hj Hst Hg. apply wp_bind. apply wp_bind.
    eapply wp_mget_alias with (A := E) (C := C); eauto; try lia.
    eapply wp_mset; [exact Hw|exact Hst|lia|lia|exact I|]. intros m1 Hst1.
    eapply wp_acc_set with (e := fun k => a i k * b k j); [lia|exact Hst1| |].
    - intros k m2 g' Q Hk Hst2 HQ.
      apply wp_bind. eapply wp_mget_in with (A := A); eauto; try lia; try exact I.
      apply wp_bind. eapply wp_mget_in with (A := B); eauto; try lia; try exact I.
      eapply wp_macc_add; eauto; try lia; exact I.
    - intros m2 Hst2. rewrite Nat.sub_0_r in Hst2. exact Hst2. }
  intros [] m' H. eapply mst_done; [exact H|]. intros; bcase.
Qed.

(** * Symmetric products *)
Lemma symm_left_ok : forall (m : mem O) A t B C a b,
  ext0 A = ext1 A -> ext0 C = ext0 A -> ext1 A = ext0 B -> ext1 C = ext1 B ->
  mat_holds_on m A (in_tri t) a -> mat_holds m B b -> mwritable C -> allocated m (mcells C) ->
  disjoint (mcells_on A (in_tri t)) (mcells C) -> disjoint (mcells B) (mcells C) ->
  succeeds (symmetric_matrix_product_left A t B C) m (fun _ m' =>
    mat_holds m' C (fun i j => bigsum (ext1 A) (fun k => sym_of t a i k * b k j)) /\ changes_only m m' (mcells C)).
Proof.
  intros m A t B C a b Hsq H1 H2 H3 HA HB Hw Hal HdA HdB.
  pose proof (alloc_mat_holds Hal) as H0. eapply wp_conseq.
  { unfold symmetric_matrix_product_left. apply wp_cols with (m0 := m) (C := C) (P := all2) (c0 := contents_m m C)
      (f := fun i j => bigsum (ext1 A) (fun k => sym_of t a i k * b k j))
      (lo := fun _ => 0) (hi := fun _ => ext0 C); auto using mst_init; try lia.
    intros i j m' g Hi Hj Hst Hg. apply wp_bind.
    eapply wp_mset; [exact Hw|exact Hst|lia|lia|exact I|]. intros m1 Hst1.
    eapply wp_acc_set with (e := fun k => sym_of t a i k * b k j); [lia|exact Hst1| |].
    - intros k m2 g' Q Hk Hst2 HQ. apply wp_bind.
      apply wp_conseq with (Q := fun v m' => v = sym_of t a i k /\ m' = m2).
      { unfold sym_of. destruct t; simpl.
        - destruct (Nat.leb_spec i k).
          + eapply wp_mget_in with (A := A); eauto; simpl; try lia. split; auto.
            destruct (Nat.leb_spec k i); auto. replace k with i by lia; auto.
          + eapply wp_mget_in with (A := A); eauto; simpl; try lia. split; auto. bdec; auto.
        - destruct (Nat.leb_spec k i).
          + eapply wp_mget_in with (A := A); eauto; simpl; try lia. split; auto.
            destruct (Nat.leb_spec i k); auto. replace k with i by lia; auto.
          + eapply wp_mget_in with (A := A); eauto; simpl; try lia. split; auto. bdec; auto. }
      intros v m3 [-> ->].
      apply wp_bind. eapply wp_mget_in with (A := B); eauto; try lia; try exact I.
      eapply wp_macc_add; eauto; try lia; exact I.
    - intros m2 Hst2. rewrite Nat.sub_0_r in Hst2. exact Hst2. }
  intros [] m' H. eapply mst_done; [exact H|]. intros; bcase.
Qed.

Lemma symm_right_ok : forall (m : mem O) B A t C a b,
  ext0 A = ext1 A -> ext0 C = ext0 B -> ext1 B = ext0 A -> ext1 C = ext1 A ->
  mat_holds_on m A (in_tri t) a -> mat_holds m B b -> mwritable C -> allocated m (mcells C) ->
  disjoint (mcells_on A (in_tri t)) (mcells C) -> disjoint (mcells B) (mcells C) ->
  succeeds (symmetric_matrix_product_right B A t C) m (fun _ m' =>
    mat_holds m' C (fun i j => bigsum (ext1 A) (fun k => b i k * sym_of t a k j)) /\ changes_only m m' (mcells C)).
Proof.
  intros m B A t C a b Hsq H1 H2 H3 HA HB Hw Hal HdA HdB.
  pose proof (alloc_mat_holds Hal) as H0. eapply wp_conseq.
  { unfold symmetric_matrix_product_right. apply wp_cols with (m0 := m) (C := C) (P := all2) (c0 := contents_m m C)
      (f := fun i j => bigsum (ext1 A) (fun k => b i k * sym_of t a k j))
      (lo := fun _ => 0) (hi := fun _ => ext0 C); auto using mst_init; try lia.
    intros i j m' g Hi Hj Hst Hg. apply wp_bind.
    eapply wp_mset; [exact Hw|exact Hst|lia|lia|exact I|]. intros m1 Hst1.
    eapply wp_acc_set with (e := fun k => b i k * sym_of t a k j); [lia|exact Hst1| |].
    - intros k m2 g' Q Hk Hst2 HQ. apply wp_bind.
      apply wp_conseq with (Q := fun v m' => v = sym_of t a k j /\ m' = m2).
      { unfold sym_of. destruct t; simpl.
        - destruct (Nat.leb_spec j k); eapply wp_mget_in with (A := A); eauto; simpl; try lia.
        - destruct (Nat.leb_spec k j); eapply wp_mget_in with (A := A); eauto; simpl; try lia. }
      intros v m3 [-> ->].
      apply wp_bind. eapply wp_mget_in with (A := B); eauto; try lia; try exact I.
      eapply wp_macc_add; eauto; try lia; exact I.
    - intros m2 Hst2. rewrite Nat.sub_0_r in Hst2. exact Hst2. }
  intros [] m' H. eapply mst_done; [exact H|]. intros; bcase.
Qed.

(** * Hermitian products *)
Lemma hemm_left_ok : forall (m : mem O) A t B C a b,
  ext0 A = ext1 A -> ext0 C = ext0 A -> ext1 A = ext0 B -> ext1 C = ext1 B ->
  mat_holds_on m A (in_tri t) a -> mat_holds m B b -> mwritable C -> allocated m (mcells C) ->
  disjoint (mcells_on A (in_tri t)) (mcells C) -> disjoint (mcells B) (mcells C) ->
  succeeds (hermitian_matrix_product_left A t B C) m (fun _ m' =>
    mat_holds m' C (fun i j => bigsum (ext1 A) (fun k => herm_of t a i k * b k j)) /\ changes_only m m' (mcells C)).
Proof.
  intros m A t B C a b Hsq H1 H2 H3 HA HB Hw Hal HdA HdB.
  pose proof (alloc_mat_holds Hal) as H0. eapply wp_conseq.
  { assert (forall i j m' g (p1 p2 : nat -> prog O unit),
      i < ext0 C -> j < ext1 C -> mst m m' C all2 g ->
      (forall k m2 g' (Q : unit -> mem O -> Prop), k < i -> mst m m2 C all2 g' ->
         (forall m3, mst m m3 C all2 (fset2 g' i j (g' i j + herm_of t a i k * b k j)) -> Q tt m3) -> succeeds (p1 k) m2 Q) ->
      (forall k m2 g' (Q : unit -> mem O -> Prop), i < k < ext1 A -> mst m m2 C all2 g' ->
         (forall m3, mst m m3 C all2 (fset2 g' i j (g' i j + herm_of t a i k * b k j)) -> Q tt m3) -> succeeds (p2 k) m2 Q) ->
      succeeds (bind (mset C i j zero) (fun _ =>
        bind (for_range 0 i p1) (fun _ =>
        bind (bind (mget A i i) (fun a => bind (mget B i j) (fun b => macc_add C i j (re a * b)))) (fun _ =>
        for_range (i + 1) (ext1 A) p2))))
      m' (fun _ m'' => mst m m'' C all2 (fset2 g i j (bigsum (ext1 A) (fun k => herm_of t a i k * b k j))))) as K.
    { intros i j m' g p1 p2 Hi Hj Hst Hp1 Hp2. apply wp_bind.
      eapply wp_mset; [exact Hw|exact Hst|lia|lia|exact I|]. intros m1 Hst1. apply wp_bind.
      eapply wp_acc_set with (e := fun k => herm_of t a i k * b k j); [lia|exact Hst1| |].
      { intros k m2 g' Q Hk Hst2 HQ. eapply Hp1; eauto; lia. }
      intros m2 Hst2. apply wp_bind. apply wp_bind.
      eapply wp_mget_in with (A := A); eauto; simpl; try lia. { destruct t; simpl; lia. }
      apply wp_bind. eapply wp_mget_in with (A := B); eauto; try lia; try exact I.
      eapply wp_macc_add; eauto; try lia; try exact I. intros m3 Hst3.
      rewrite fset2_same in Hst3.
      eapply wp_acc_set with (e := fun k => herm_of t a i k * b k j); [lia|exact Hst3| |].
      { intros k m4 g' Q Hk Hst4 HQ. eapply Hp2; eauto; lia. }
      intros m4 Hst4. eapply mst_ext; [|exact Hst4]. intros k l _ _ _. rewrite fset2_fset2.
      unfold fset2. destruct ((k =? i) && (l =? j)); auto. unfold bigsum. rewrite Nat.sub_0_r.
      replace (ext1 A) with (S i + (ext1 A - S i))%nat at 2 by lia.
      rewrite sum_from_app, sum_from_S. rewrite Nat.add_1_r. f_equal. f_equal.
      unfold herm_of. simpl. rewrite Nat.eqb_refl; auto. }
    unfold hermitian_matrix_product_left. destruct t.
    - rewrite Hsq. apply wp_cols with (m0 := m) (C := C) (P := all2) (c0 := contents_m m C)
        (f := fun i j => bigsum (ext1 A) (fun k => herm_of Lower a i k * b k j))
        (lo := fun _ => 0) (hi := fun _ => ext0 C); auto using mst_init; try lia.
      intros i j m' g Hj Hi Hst Hg.
      eapply K; eauto; try lia; intros k m2 g' Q Hk Hst2 HQ;
        unfold herm_of, in_tri_b in HQ; revert HQ; bdec; intros HQ.
      + apply wp_bind. eapply wp_mget_in with (A := A); eauto; simpl; try lia.
        apply wp_bind. eapply wp_mget_in with (A := B); eauto; try lia; try exact I.
        eapply wp_macc_add; eauto; try lia; exact I.
      + apply wp_bind. eapply wp_mget_in with (A := A); eauto; simpl; try lia.
        apply wp_bind. eapply wp_mget_in with (A := B); eauto; try lia; try exact I.
        eapply wp_macc_add; eauto; try lia; exact I.
    - apply wp_cols with (m0 := m) (C := C) (P := all2) (c0 := contents_m m C)
        (f := fun i j => bigsum (ext1 A) (fun k => herm_of Upper a i k * b k j))
        (lo := fun _ => 0) (hi := fun _ => ext0 C); auto using mst_init; try lia.
      intros i j m' g Hj Hi Hst Hg.
      eapply K; eauto; try lia; intros k m2 g' Q Hk Hst2 HQ;
        unfold herm_of, in_tri_b in HQ; revert HQ; bdec; intros HQ.
      + apply wp_bind. eapply wp_mget_in with (A := A); eauto; simpl; try lia.
        apply wp_bind. eapply wp_mget_in with (A := B); eauto; try lia; try exact I.
        eapply wp_macc_add; eauto; try lia; exact I.
      + apply wp_bind. eapply wp_mget_in with (A := A); eauto; simpl; try lia.
        apply wp_bind. eapply wp_mget_in with (A := B); eauto; try lia; try exact I.
        eapply wp_macc_add; eauto; try lia; exact I. }
  intros [] m' H. eapply mst_done; [exact H|]. intros; bcase.
Qed.

(** The full matrix that the right product works with: the diagonal is used as stored. *)
Definition herm_raw (t : triangle) (a : nat -> nat -> O) (i j : nat) : O :=
  if in_tri_b t i j then a i j else conj (a j i).

Lemma hemm_right_ok : forall (m : mem O) B A t C a b,
  ext0 A = ext1 A -> ext0 C = ext0 B -> ext1 B = ext0 A -> ext1 C = ext1 A ->
  mat_holds_on m A (in_tri t) a -> mat_holds m B b -> mwritable C -> allocated m (mcells C) ->
  disjoint (mcells_on A (in_tri t)) (mcells C) -> disjoint (mcells B) (mcells C) ->
  succeeds (hermitian_matrix_product_right B A t C) m (fun _ m' =>
    mat_holds m' C (fun i j => bigsum (ext1 A) (fun k => b i k * herm_raw t a k j)) /\ changes_only m m' (mcells C)).
Proof.
  intros m B A t C a b Hsq H1 H2 H3 HA HB Hw Hal HdA HdB.
  pose proof (alloc_mat_holds Hal) as H0. eapply wp_conseq.
  { unfold hermitian_matrix_product_right. apply wp_cols with (m0 := m) (C := C) (P := all2) (c0 := contents_m m C)
      (f := fun i j => bigsum (ext1 A) (fun k => b i k * herm_raw t a k j))
      (lo := fun _ => 0) (hi := fun _ => ext0 C); auto using mst_init; try lia.
    intros i j m' g Hi Hj Hst Hg. apply wp_bind.
    eapply wp_mset; [exact Hw|exact Hst|lia|lia|exact I|]. intros m1 Hst1.
    eapply wp_acc_set with (e := fun k => b i k * herm_raw t a k j); [lia|exact Hst1| |].
    - intros k m2 g' Q Hk Hst2 HQ. apply wp_bind.
      apply wp_conseq with (Q := fun v m' => v = herm_raw t a k j /\ m' = m2).
      { unfold herm_raw. destruct t; simpl.
        - destruct (Nat.leb_spec j k).
          + eapply wp_mget_in with (A := A); eauto; simpl; try lia.
          + apply wp_bind. eapply wp_mget_in with (A := A); eauto; simpl; try lia. apply wp_ret; auto.
        - destruct (Nat.leb_spec k j).
          + eapply wp_mget_in with (A := A); eauto; simpl; try lia.
          + apply wp_bind. eapply wp_mget_in with (A := A); eauto; simpl; try lia. apply wp_ret; auto. }
      intros v m3 [-> ->].
      apply wp_bind. eapply wp_mget_in with (A := B); eauto; try lia; try exact I.
      eapply wp_macc_add; eauto; try lia; exact I.
    - intros m2 Hst2. rewrite Nat.sub_0_r in Hst2. exact Hst2. }
  intros [] m' H. eapply mst_done; [exact H|]. intros; bcase.
Qed.

Lemma hemm_right_real_ok : forall (m : mem O) B A t C a b,
  (forall i, i < ext0 A -> re (a i i) = a i i) ->
  ext0 A = ext1 A -> ext0 C = ext0 B -> ext1 B = ext0 A -> ext1 C = ext1 A ->
  mat_holds_on m A (in_tri t) a -> mat_holds m B b -> mwritable C -> allocated m (mcells C) ->
  disjoint (mcells_on A (in_tri t)) (mcells C) -> disjoint (mcells B) (mcells C) ->
  succeeds (hermitian_matrix_product_right B A t C) m (fun _ m' =>
    mat_holds m' C (fun i j => bigsum (ext1 A) (fun k => b i k * herm_of t a k j)) /\ changes_only m m' (mcells C)).
Proof.
  intros m B A t C a b Hre Hsq H1 H2 H3 HA HB Hw Hal HdA HdB.
  eapply wp_conseq; [apply hemm_right_ok; eauto|].
  intros [] m' [Hh Hc]; split; auto. eapply mat_holds_on_ext; [|exact Hh].
  intros i j Hi Hj _. apply sum_from_ext. intros k Hk. f_equal. unfold herm_raw, herm_of.
  destruct (Nat.eqb_spec k j) as [->|]; auto. rewrite Hre by lia. destruct t; simpl; bdec; auto.
Qed.

End Pf.

(** * Triangular products *)
Section Diag.
Context {O : ops}.
Definition diag_term_r (d : diagonal) (xi aii : O) : O :=
  match d with Explicit => xi * aii | ImplicitUnit => xi end.

Section Ring.
Context (L : ring_laws O).
Let LA := ring_add L.

Lemma tri_left_lower : forall d n a (f : nat -> O) i, i < n ->
  bigsum n (fun k => tri_of Lower d a i k * f k) =
  sum_from zero 0 i (fun k => a i k * f k) + diag_term d (a i i) (f i).
Proof.
  intros. rewrite <- (tri_row_lower zero d n a f i), (tri_row_sum L) by auto. rewrite (add_0_l LA); auto.
Qed.
Lemma tri_left_upper : forall d n a (f : nat -> O) i, i < n ->
  bigsum n (fun k => tri_of Upper d a i k * f k) =
  sum_from zero (i + 1) (n - (i + 1)) (fun k => a i k * f k) + diag_term d (a i i) (f i).
Proof.
  intros. rewrite <- (tri_row_upper L zero d a f (n := n)) by auto. rewrite (tri_row_sum L) by auto. rewrite (add_0_l LA); auto.
Qed.
End Ring.

End Diag.

Section Pf2.
Context {O : ops}.
(** The opposite ring: products in the other order. *)
Definition oop : ops := {| car := O; zero := zero; one := one; add := add; sub := sub;
  mul := fun x y => mul y x; div := div; conj := conj; re := re |}.
Lemma oop_ring : ring_laws O -> ring_laws oop.
Proof.
  intros L. constructor; simpl; intros.
  - destruct (ring_add L); constructor; auto.
  - apply (mul_add_r L).
  - apply (mul_add_l L).
  - symmetry; apply (mul_assoc L).
  - apply (mul_1_r L).
  - apply (mul_1_l L).
  - apply (mul_0_r L).
  - apply (mul_0_l L).
  - apply (sub_add L).
Qed.
Definition flip (t : triangle) : triangle := match t with Lower => Upper | Upper => Lower end.
Lemma tri_of_flip : forall t d (a : nat -> nat -> O) i j,
  tri_of (flip t) d (fun i j => a j i) i j = tri_of t d a j i.
Proof.
  intros t d a i j. unfold tri_of. rewrite (Nat.eqb_sym j i).
  destruct (Nat.eqb_spec i j) as [->|]; auto. destruct t; simpl; auto.
Qed.

Lemma tri_right_lower : ring_laws O -> forall d n (a : nat -> nat -> O) f j, j < n ->
  bigsum n (fun k => f k * tri_of Lower d a k j) =
  sum_from zero (j + 1) (n - (j + 1)) (fun k => f k * a k j) + diag_term_r d (f j) (a j j).
Proof.
  intros L d n a f j Hj.
  pose proof (@tri_left_upper oop (oop_ring L) d n (fun i j => a j i) f j Hj) as E.
  transitivity (bigsum n (fun k => f k * tri_of (flip Lower) d (fun i j => a j i) j k)).
  { apply sum_from_ext. intros. rewrite tri_of_flip; auto. }
  exact E.
Qed.
Lemma tri_right_upper : ring_laws O -> forall d n (a : nat -> nat -> O) f j, j < n ->
  bigsum n (fun k => f k * tri_of Upper d a k j) =
  sum_from zero 0 j (fun k => f k * a k j) + diag_term_r d (f j) (a j j).
Proof.
  intros L d n a f j Hj.
  pose proof (@tri_left_lower oop (oop_ring L) d n (fun i j => a j i) f j Hj) as E.
  transitivity (bigsum n (fun k => f k * tri_of (flip Upper) d (fun i j => a j i) j k)).
  { apply sum_from_ext. intros. rewrite tri_of_flip; auto. }
  exact E.
Qed.

(** One element of an overwriting triangular product. *)
Lemma wp_tri_elem : forall (m0 m : mem O) (C : mat O) g i j lo hi (e : nat -> O) last body rd (d : diagonal),
  mwritable C -> mst m0 m C all2 g -> i < ext0 C -> j < ext1 C -> lo <= hi ->
  (forall k m' g' (Q : unit -> mem O -> Prop), lo <= k < hi -> mst m0 m' C all2 g' ->
     (forall m'', mst m0 m'' C all2 (fset2 g' i j (g' i j + e k)) -> Q tt m'') -> succeeds (body k) m' Q) ->
  (forall m' g' (Q : unit -> mem O -> Prop), mst m0 m' C all2 g' ->
     (forall m'', mst m0 m'' C all2 (fset2 g' i j (g' i j + last)) -> Q tt m'') -> succeeds rd m' Q) ->
  succeeds (bind (mset C i j zero) (fun _ => bind (for_range lo hi body) (fun _ => when (negb (is_explicit d)) rd))) m
    (fun _ m' => mst m0 m' C all2 (fset2 g i j
       (match d with Explicit => sum_from zero lo (hi - lo) e | ImplicitUnit => sum_from zero lo (hi - lo) e + last end))).
Proof.
  intros m0 m C g i j lo hi e last body rd d Hw Hst Hi Hj Hl Hb Hr. apply wp_bind.
  eapply wp_mset; [exact Hw|exact Hst|lia|lia|exact I|]. intros m1 Hst1. apply wp_bind.
  eapply wp_acc_set with (e := e); [lia|exact Hst1|exact Hb|].
  intros m2 Hst2. destruct d; simpl.
  - apply wp_ret; auto.
  - eapply Hr; eauto. intros m3 Hst3. eapply mst_ext; [|exact Hst3]. intros k l _ _ _.
    rewrite fset2_fset2, fset2_same; auto.
Qed.

(** Element of a triangular product as computed: the terms of the stored part first, then the unit diagonal. *)
Definition tri_elem (lower : bool) (d : diagonal) (n i : nat) (e : nat -> O) (last : O) : O :=
  let lo := if lower then 0 else if is_explicit d then i else (i + 1)%nat in
  let hi := if lower then (if is_explicit d then (i + 1)%nat else i) else n in
  match d with Explicit => sum_from zero lo (hi - lo) e | ImplicitUnit => sum_from zero lo (hi - lo) e + last end.
Definition is_lower (t : triangle) : bool := match t with Lower => true | Upper => false end.

Lemma trmm_left_raw : forall ty (m : mem O) A t d B C a b,
  fits ty (ext0 C) ->
  ext0 A = ext1 A -> ext0 C = ext0 A -> ext1 A = ext0 B -> ext1 C = ext1 B ->
  mat_holds_on m A (stored t d) a -> mat_holds m B b -> mwritable C -> allocated m (mcells C) ->
  disjoint (mcells_on A (stored t d)) (mcells C) -> disjoint (mcells B) (mcells C) ->
  succeeds (triangular_matrix_product_left ty A t d B C) m (fun _ m' =>
    mat_holds m' C (fun i j => tri_elem (is_lower t) d (ext1 A) i (fun k => a i k * b k j) (b i j)) /\ changes_only m m' (mcells C)).
Proof.
  intros ty m A t d B C a b Hfit Hsq H1 H2 H3 HA HB Hw Hal HdA HdB.
  pose proof (alloc_mat_holds Hal) as H0. eapply wp_conseq.
  { assert (forall i j k m2 g' (Q : unit -> mem O -> Prop), i < ext0 C -> j < ext1 C -> k < ext0 C -> stored t d i k ->
        mst m m2 C all2 g' ->
        (forall m3, mst m m3 C all2 (fset2 g' i j (g' i j + a i k * b k j)) -> Q tt m3) ->
        succeeds (bind (mget A i k) (fun a => bind (mget B k j) (fun b => macc_add C i j (a * b)))) m2 Q) as K.
    { intros i j k m2 g' Q Hi Hj Hk Hs Hst2 HQ.
      apply wp_bind. eapply wp_mget_in with (A := A); eauto; simpl; try lia.
      apply wp_bind. eapply wp_mget_in with (A := B); eauto; try lia; try exact I.
      eapply wp_macc_add; eauto; try lia; exact I. }
    assert (forall i j m2 g' (Q : unit -> mem O -> Prop), i < ext0 C -> j < ext1 C -> mst m m2 C all2 g' ->
        (forall m3, mst m m3 C all2 (fset2 g' i j (g' i j + b i j)) -> Q tt m3) ->
        succeeds (bind (mget B i j) (fun b => macc_add C i j b)) m2 Q) as K2.
    { intros i j m2 g' Q Hi Hj Hst2 HQ.
      apply wp_bind. eapply wp_mget_in with (A := B); eauto; try lia; try exact I.
      eapply wp_macc_add; eauto; try lia; exact I. }
    unfold triangular_matrix_product_left. destruct t.
    - apply wp_cols with (m0 := m) (C := C) (P := all2) (c0 := contents_m m C)
        (f := fun i j => tri_elem (is_lower Lower) d (ext1 A) i (fun k => a i k * b k j) (b i j))
        (lo := fun _ => 0) (hi := fun _ => ext0 C); auto using mst_init; try lia.
      intros i j m' g Hj Hi Hst Hg. rewrite k_upper_ok by (destruct Hfit; lia).
      eapply wp_conseq.
      { apply wp_tri_elem with (e := fun k => a i k * b k j) (last := b i j); eauto; try lia.
        + intros k m2 g' Q Hk Hst2 HQ. eapply K; eauto; try lia.
          * destruct d; simpl in Hk; lia.
          * split; simpl; [destruct d; simpl in Hk; lia|]. intros ->. simpl in Hk. lia.
        + intros m2 g' Q Hst2 HQ. eapply K2; eauto; lia. }
      intros [] m2 Hst2. eapply mst_ext; [|exact Hst2]. intros k l _ _ _. unfold fset2.
      destruct ((k =? i) && (l =? j)); reflexivity.
    - apply wp_cols with (m0 := m) (C := C) (P := all2) (c0 := contents_m m C)
        (f := fun i j => tri_elem (is_lower Upper) d (ext1 A) i (fun k => a i k * b k j) (b i j))
        (lo := fun _ => 0) (hi := fun _ => ext0 C); auto using mst_init; try lia.
      intros i j m' g Hj Hi Hst Hg. rewrite (k_lower_ok d Hfit) by lia. rewrite from_index_nat.
      eapply wp_conseq.
      { apply wp_tri_elem with (e := fun k => a i k * b k j) (last := b i j); eauto; try lia.
        + destruct d; simpl; lia.
        + intros k m2 g' Q Hk Hst2 HQ. eapply K; eauto; try lia.
          split; simpl; [destruct d; simpl in Hk; lia|]. intros ->. simpl in Hk. lia.
        + intros m2 g' Q Hst2 HQ. eapply K2; eauto; lia. }
      intros [] m2 Hst2. eapply mst_ext; [|exact Hst2]. intros k l _ _ _. unfold fset2.
      destruct ((k =? i) && (l =? j)); auto. replace (ext1 A) with (ext0 C) by lia. reflexivity. }
  intros [] m' H. eapply mst_done; [exact H|]. intros; bcase.
Qed.

Lemma trmm_left_ok : forall ty (m : mem O) A t d B C a b,
  ring_laws O -> fits ty (ext0 C) ->
  ext0 A = ext1 A -> ext0 C = ext0 A -> ext1 A = ext0 B -> ext1 C = ext1 B ->
  mat_holds_on m A (stored t d) a -> mat_holds m B b -> mwritable C -> allocated m (mcells C) ->
  disjoint (mcells_on A (stored t d)) (mcells C) -> disjoint (mcells B) (mcells C) ->
  succeeds (triangular_matrix_product_left ty A t d B C) m (fun _ m' =>
    mat_holds m' C (fun i j => bigsum (ext1 A) (fun k => tri_of t d a i k * b k j)) /\ changes_only m m' (mcells C)).
Proof.
  intros ty m A t d B C a b L. intros. pose proof (ring_add L) as LA. eapply wp_conseq; [apply trmm_left_raw; eauto|].
  intros [] m' [K1 K2]. split; auto. intros i j Hi Hj HP. destruct (K1 i j Hi Hj HP) as (v & Hv & Ev). exists v. split; auto.
  rewrite Ev. unfold tri_elem. destruct t; cbn [is_lower negb].
  - rewrite (tri_left_lower L) by lia. destruct d; simpl; rewrite Nat.sub_0_r; auto. rewrite Nat.add_1_r, sum_from_S. auto.
  - rewrite (tri_left_upper L) by lia. destruct d; simpl; auto.
    replace (ext1 A - i)%nat with (S (ext1 A - (i + 1))) by lia. rewrite (sum_rev_head LA), Nat.add_1_r. auto.
Qed.

Lemma trmm_right_raw : forall ty (m : mem O) B A t d C a b,
  fits ty (ext1 C) ->
  ext0 A = ext1 A -> ext0 C = ext0 B -> ext1 B = ext0 A -> ext1 C = ext1 A ->
  mat_holds_on m A (stored t d) a -> mat_holds m B b -> mwritable C -> allocated m (mcells C) ->
  disjoint (mcells_on A (stored t d)) (mcells C) -> disjoint (mcells B) (mcells C) ->
  succeeds (triangular_matrix_product_right ty B A t d C) m (fun _ m' =>
    mat_holds m' C (fun i j => tri_elem (negb (is_lower t)) d (ext1 A) j (fun k => b i k * a k j) (b i j)) /\ changes_only m m' (mcells C)).
Proof.
  intros ty m B A t d C a b Hfit Hsq H1 H2 H3 HA HB Hw Hal HdA HdB.
  pose proof (alloc_mat_holds Hal) as H0. eapply wp_conseq.
  { assert (forall i j k m2 g' (Q : unit -> mem O -> Prop), i < ext0 C -> j < ext1 C -> k < ext1 C -> stored t d k j ->
        mst m m2 C all2 g' ->
        (forall m3, mst m m3 C all2 (fset2 g' i j (g' i j + b i k * a k j)) -> Q tt m3) ->
        succeeds (bind (mget B i k) (fun b => bind (mget A k j) (fun a => macc_add C i j (b * a)))) m2 Q) as K.
    { intros i j k m2 g' Q Hi Hj Hk Hs Hst2 HQ.
      apply wp_bind. eapply wp_mget_in with (A := B); eauto; try lia; try exact I.
      apply wp_bind. eapply wp_mget_in with (A := A); eauto; simpl; try lia.
      eapply wp_macc_add; eauto; try lia; exact I. }
    assert (forall i j m2 g' (Q : unit -> mem O -> Prop), i < ext0 C -> j < ext1 C -> mst m m2 C all2 g' ->
        (forall m3, mst m m3 C all2 (fset2 g' i j (g' i j + b i j)) -> Q tt m3) ->
        succeeds (bind (mget B i j) (fun b => macc_add C i j b)) m2 Q) as K2.
    { intros i j m2 g' Q Hi Hj Hst2 HQ.
      apply wp_bind. eapply wp_mget_in with (A := B); eauto; try lia; try exact I.
      eapply wp_macc_add; eauto; try lia; exact I. }
    unfold triangular_matrix_product_right. destruct t.
    - apply wp_cols with (m0 := m) (C := C) (P := all2) (c0 := contents_m m C)
        (f := fun i j => tri_elem (negb (is_lower Lower)) d (ext1 A) j (fun k => b i k * a k j) (b i j))
        (lo := fun _ => 0) (hi := fun _ => ext0 C); auto using mst_init; try lia.
      intros i j m' g Hj Hi Hst Hg. rewrite (k_lower_ok d Hfit) by lia. rewrite from_index_nat.
      eapply wp_conseq.
      { apply wp_tri_elem with (e := fun k => b i k * a k j) (last := b i j); eauto; try lia.
        + destruct d; simpl; lia.
        + intros k m2 g' Q Hk Hst2 HQ. eapply K; eauto; try lia.
          split; simpl; [destruct d; simpl in Hk; lia|]. intros ->. simpl in Hk. lia.
        + intros m2 g' Q Hst2 HQ. eapply K2; eauto; lia. }
      intros [] m2 Hst2. eapply mst_ext; [|exact Hst2]. intros k l _ _ _. unfold fset2.
      destruct ((k =? i) && (l =? j)); auto. rewrite <- H3. reflexivity.
    - apply wp_cols with (m0 := m) (C := C) (P := all2) (c0 := contents_m m C)
        (f := fun i j => tri_elem (negb (is_lower Upper)) d (ext1 A) j (fun k => b i k * a k j) (b i j))
        (lo := fun _ => 0) (hi := fun _ => ext0 C); auto using mst_init; try lia.
      intros i j m' g Hj Hi Hst Hg. rewrite k_upper_ok by (destruct Hfit; lia).
      eapply wp_conseq.
      { apply wp_tri_elem with (e := fun k => b i k * a k j) (last := b i j); eauto; try lia.
        + intros k m2 g' Q Hk Hst2 HQ. eapply K; eauto; try lia.
          * destruct d; simpl in Hk; lia.
          * split; simpl; [destruct d; simpl in Hk; lia|]. intros ->. simpl in Hk. lia.
        + intros m2 g' Q Hst2 HQ. eapply K2; eauto; lia. }
      intros [] m2 Hst2. eapply mst_ext; [|exact Hst2]. intros k l _ _ _. unfold fset2.
      destruct ((k =? i) && (l =? j)); reflexivity. }
  intros [] m' H. eapply mst_done; [exact H|]. intros; bcase.
Qed.

Lemma trmm_right_ok : forall ty (m : mem O) B A t d C a b,
  ring_laws O -> fits ty (ext1 C) ->
  ext0 A = ext1 A -> ext0 C = ext0 B -> ext1 B = ext0 A -> ext1 C = ext1 A ->
  mat_holds_on m A (stored t d) a -> mat_holds m B b -> mwritable C -> allocated m (mcells C) ->
  disjoint (mcells_on A (stored t d)) (mcells C) -> disjoint (mcells B) (mcells C) ->
  succeeds (triangular_matrix_product_right ty B A t d C) m (fun _ m' =>
    mat_holds m' C (fun i j => bigsum (ext1 A) (fun k => b i k * tri_of t d a k j)) /\ changes_only m m' (mcells C)).
Proof.
  intros ty m B A t d C a b L. intros. pose proof (ring_add L) as LA. eapply wp_conseq; [apply trmm_right_raw; eauto|].
  intros [] m' [K1 K2]. split; auto. intros i j Hi Hj HP. destruct (K1 i j Hi Hj HP) as (v & Hv & Ev). exists v. split; auto.
  rewrite Ev. unfold tri_elem. destruct t; cbn [is_lower negb].
  - rewrite (tri_right_lower L) by lia. destruct d; simpl; auto.
    replace (ext1 A - j)%nat with (S (ext1 A - (j + 1))) by lia. rewrite (sum_rev_head LA), Nat.add_1_r. auto.
  - rewrite (tri_right_upper L) by lia. destruct d; simpl; rewrite Nat.sub_0_r; auto. rewrite Nat.add_1_r, sum_from_S. auto.
Qed.

(** * In-place triangular products *)
Lemma trmm_right_inplace_ok : forall (m : mem O) A t d C a c,
  ring_laws O ->
  ext0 A = ext1 A -> ext1 C = ext0 A ->
  mat_holds_on m A (stored t d) a -> mat_holds m C c -> mwritable C ->
  disjoint (mcells_on A (stored t d)) (mcells C) ->
  succeeds (triangular_matrix_right_product A t d C) m (fun _ m' =>
    mat_holds m' C (fun i j => bigsum (ext1 A) (fun k => c i k * tri_of t d a k j)) /\ changes_only m m' (mcells C)).
Proof.
  intros m A t d C a c L Hsq H1 HA HC Hw HdA. pose proof (ring_add L) as LA.
  set (dg := fun i j => diag_term_r d (c i j) (a j j)).
  (* scaling column j by the diagonal *)
  assert (forall j m' g, j < ext1 C -> mst m m' C all2 g -> (forall i, g i j = c i j) ->
     succeeds (when (is_explicit d) (for_range 0 (ext0 C) (fun i =>
        bind (mget C i j) (fun c => bind (mget A j j) (fun a => mset C i j (c * a)))))) m'
       (fun _ m'' => mst m m'' C all2 (fun i l => if l =? j then dg i j else g i l))) as KD.
  { intros j m' g Hj Hst Hg. unfold when. unfold dg, diag_term_r. destruct d; simpl.
    - apply wp_for_range with (I := fun k m' => mst m m' C all2 (fun i l => if (l =? j) && (i <? k) then c i j * a j j else g i l)); try lia.
      + eapply mst_ext; [|exact Hst]. intros; bcase.
      + intros i m1 Hi Hst1. apply wp_bind. eapply wp_mget; [apply Hst1|lia|lia|exact I|]. bdec.
        apply wp_bind. eapply wp_mget_in with (A := A); eauto; try lia. { split; simpl; [destruct t; simpl; lia|discriminate]. }
        eapply wp_mset; [exact Hw|exact Hst1|lia|lia|exact I|]. intros m2 Hst2.
        eapply mst_ext; [|exact Hst2]. intros k l _ _ _. unfold fset2. rewrite Hg. bcase.
      + intros m1 Hst1. eapply mst_ext; [|exact Hst1]. intros; bcase.
    - apply wp_ret. eapply mst_ext; [|exact Hst]. intros i l _ _ _. bcase. }
  (* adding column k of C times A(k,j) to column j *)
  assert (forall j k m' g, j < ext1 C -> k < ext1 C -> k <> j -> stored t d k j -> mst m m' C all2 g ->
     succeeds (for_range 0 (ext0 C) (fun i =>
        bind (mget C i k) (fun c => bind (mget A k j) (fun a => macc_add C i j (c * a))))) m'
       (fun _ m'' => mst m m'' C all2 (fun i l => if l =? j then g i j + g i k * a k j else g i l))) as KA.
  { intros j k m' g Hj Hk Hkj Hs Hst.
    apply wp_for_range with (I := fun k' m' => mst m m' C all2 (fun i l => if (l =? j) && (i <? k') then g i j + g i k * a k j else g i l)); try lia.
    - eapply mst_ext; [|exact Hst]. intros; bcase.
    - intros i m1 Hi Hst1. apply wp_bind. eapply wp_mget; [apply Hst1|lia|lia|exact I|]. bdec.
      apply wp_bind. eapply wp_mget_in with (A := A); eauto; try lia.
      eapply wp_macc_add; [exact Hw|exact Hst1|lia|lia|exact I|]. intros m2 Hst2.
      eapply mst_ext; [|exact Hst2]. intros k' l _ _ _. unfold fset2. bdec. bcase.
    - intros m1 Hst1. eapply mst_ext; [|exact Hst1]. intros; bcase. }
  unfold triangular_matrix_right_product. destruct t.
  - set (R := fun i j => sum_from (dg i j) (j + 1) (ext1 C - (j + 1)) (fun k => c i k * a k j)).
    apply wp_for_range with (I := fun k m' => mst m m' C all2 (fun i j => if j <? k then R i j else c i j)); try lia.
    + split; [|apply changes_only_refl]. eapply mat_holds_on_ext; [|exact HC]. intros; bcase.
    + intros j m1 Hj Hst1. apply wp_bind. eapply wp_conseq; [eapply KD; eauto; try lia; intros; bcase|].
      intros [] m2 Hst2.
      apply wp_for_range with (I := fun k m' => mst m m' C all2
        (fun i l => if l <? j then R i l else if l =? j then sum_from (dg i j) (j + 1) (k - (j + 1)) (fun k => c i k * a k j) else c i l)); try lia.
      * rewrite Nat.sub_diag. eapply mst_ext; [|exact Hst2]. intros; bcase.
      * intros k m3 Hk Hst3. eapply wp_conseq; [eapply KA; eauto; try lia; split; simpl; lia|].
        intros [] m4 Hst4. eapply mst_ext; [|exact Hst4]. intros i l _ _ _. cbv beta.
        destruct (Nat.eqb_spec l j) as [->|]; [|bcase]. bdec.
        replace (S k - (j + 1))%nat with (S (k - (j + 1))) by lia. rewrite sum_from_S.
        replace (j + 1 + (k - (j + 1)))%nat with k by lia. auto.
      * intros m3 Hst3. eapply mst_ext; [|exact Hst3]. intros i l _ _ _. cbv beta.
        destruct (Nat.eq_dec l j) as [->|]; [|bcase]. bdec. auto.
    + intros m1 Hst1. eapply mst_done; [exact Hst1|]. intros i j Hi Hj _. bdec. unfold R.
      rewrite (tri_right_lower L) by lia. replace (ext1 A) with (ext1 C) by lia.
      rewrite (sum_from_init LA), (add_comm LA). auto.
  - set (R := fun i j => sum_from (dg i j) 0 j (fun k => c i k * a k j)).
    apply wp_for_down with (I := fun k m' => mst m m' C all2 (fun i j => if k <=? j then R i j else c i j)); try lia.
    + split; [|apply changes_only_refl]. eapply mat_holds_on_ext; [|exact HC]. intros; bcase.
    + intros j m1 Hj Hst1. apply wp_bind. eapply wp_conseq; [eapply KD; eauto; try lia; intros; bcase|].
      intros [] m2 Hst2.
      apply wp_for_range with (I := fun k m' => mst m m' C all2
        (fun i l => if j <? l then R i l else if l =? j then sum_from (dg i j) 0 k (fun k => c i k * a k j) else c i l)); try lia.
      * eapply mst_ext; [|exact Hst2]. intros; bcase.
      * intros k m3 Hk Hst3. eapply wp_conseq; [eapply KA; eauto; try lia; split; simpl; lia|].
        intros [] m4 Hst4. eapply mst_ext; [|exact Hst4]. intros i l _ _ _. cbv beta.
        destruct (Nat.eqb_spec l j) as [->|]; [|bcase]. bdec. rewrite sum_from_S. auto.
      * intros m3 Hst3. eapply mst_ext; [|exact Hst3]. intros i l _ _ _. cbv beta.
        destruct (Nat.eq_dec l j) as [->|]; [|bcase]. bdec. auto.
    + intros m1 Hst1. eapply mst_done; [exact Hst1|]. intros i j Hi Hj _. bdec. unfold R.
      rewrite (tri_right_upper L) by lia.
      rewrite (sum_from_init LA), (add_comm LA). auto.
Qed.

Lemma trmm_left_inplace_ok : forall (m : mem O) A t d C a c,
  ring_laws O ->
  ext0 A = ext1 A -> ext0 C = ext0 A ->
  mat_holds_on m A (stored t d) a -> mat_holds m C c -> mwritable C ->
  disjoint (mcells_on A (stored t d)) (mcells C) ->
  succeeds (triangular_matrix_left_product A t d C) m (fun _ m' =>
    mat_holds m' C (fun i j => bigsum (ext1 A) (fun k => tri_of t d a i k * c k j)) /\ changes_only m m' (mcells C)).
Proof.
  intros m A t d C a c L Hsq H1 HA HC Hw HdA. pose proof (ring_add L) as LA.
  set (dg := fun i j => diag_term d (a i i) (c i j)).
  (* scaling element (k,j) by the diagonal *)
  assert (forall k j m' g, k < ext0 C -> j < ext1 C -> mst m m' C all2 g -> g k j = c k j ->
     succeeds (when (is_explicit d) (bind (mget A k k) (fun a => bind (mget C k j) (fun c => mset C k j (a * c))))) m'
       (fun _ m'' => mst m m'' C all2 (fset2 g k j (dg k j)))) as KD.
  { intros k j m' g Hk Hj Hst Hg. unfold when. unfold dg, diag_term. destruct d; simpl.
    - apply wp_bind. eapply wp_mget_in with (A := A); eauto; try lia. { split; simpl; [destruct t; simpl; lia|discriminate]. }
      apply wp_bind. eapply wp_mget; [apply Hst|lia|lia|exact I|].
      eapply wp_mset; [exact Hw|exact Hst|lia|lia|exact I|]. rewrite Hg. auto.
    - apply wp_ret. eapply mst_ext; [|exact Hst]. intros i l _ _ _. unfold fset2. bcase. }
  (* adding A(i,k) C(k,j) to the elements lo <= i < hi of column j *)
  assert (forall k j lo hi m' g, k < ext0 C -> j < ext1 C -> lo <= hi <= ext0 C -> (forall i, lo <= i < hi -> i <> k /\ stored t d i k) ->
     mst m m' C all2 g ->
     succeeds (for_range lo hi (fun i =>
        bind (mget A i k) (fun a => bind (mget C k j) (fun c => macc_add C i j (a * c))))) m'
       (fun _ m'' => mst m m'' C all2 (fun i l => if (l =? j) && ((lo <=? i) && (i <? hi)) then g i j + a i k * g k j else g i l))) as KA.
  { intros k j lo hi m' g Hk Hj Hlh Hs Hst.
    apply wp_for_range with (I := fun k' m' => mst m m' C all2 (fun i l => if (l =? j) && ((lo <=? i) && (i <? k')) then g i j + a i k * g k j else g i l)); try lia.
    - eapply mst_ext; [|exact Hst]. intros; bcase.
    - intros i m1 Hi Hst1. destruct (Hs i Hi).
      apply wp_bind. eapply wp_mget_in with (A := A); eauto; try lia.
      apply wp_bind. eapply wp_mget; [apply Hst1|lia|lia|exact I|].
      eapply wp_macc_add; [exact Hw|exact Hst1|lia|lia|exact I|]. intros m2 Hst2.
      eapply mst_ext; [|exact Hst2]. intros k' l _ _ _. unfold fset2.
      assert ((lo <=? k) && (k <? i) = false) as Ek.
      { destruct ((lo <=? k) && (k <? i)) eqn:E; auto. apply andb_prop in E; destruct E as [E1 E2].
        apply Nat.leb_le in E1; apply Nat.ltb_lt in E2. destruct (Hs k); lia. }
      cbv beta. rewrite Ek. rewrite andb_false_r. bdec. bcase.
    - auto. }
  unfold triangular_matrix_left_product. destruct t.
  - set (R := fun k i j => sum_from zero k (i - k) (fun k => a i k * c k j) + dg i j).
    { apply wp_for_range with (I := fun k m' => mst m m' C all2 (fun i j => if j <? k then R 0 i j else c i j)); try lia.
      - split; [|apply changes_only_refl]. eapply mat_holds_on_ext; [|exact HC]. intros; bcase.
      - intros j m1 Hj Hst1.
        apply wp_for_down with (I := fun k m' => mst m m' C all2
          (fun i l => if l <? j then R 0 i l else if (l =? j) && (k <=? i) then R k i j else c i l)).
        + eapply mst_ext; [|exact Hst1]. intros; bcase.
        + intros k m2 Hk Hst2. apply wp_bind.
          eapply wp_conseq; [eapply KA; eauto; try lia; intros; split; [lia|split; simpl; lia]|].
          intros [] m3 Hst3. eapply wp_conseq; [eapply KD; eauto; bcase|].
          intros [] m4 Hst4. eapply mst_ext; [|exact Hst4]. intros i l Hi _ _. unfold fset2. cbv beta.
          destruct (Nat.eqb_spec l j) as [->|]; [|bcase]. rewrite andb_true_r.
          destruct (Nat.eqb_spec i k) as [->|].
          { bdec. unfold R. rewrite Nat.sub_diag, sum_from_0, (add_0_l LA). auto. }
          bdec. destruct (Nat.leb_spec k i); [|bdec; auto]. bdec.
          unfold R. replace (i - k)%nat with (S (i - S k)) by lia. rewrite (sum_rev_head LA).
          rewrite <- !(add_assoc LA). f_equal. apply (add_comm LA).
        + intros m2 Hst2. eapply mst_ext; [|exact Hst2]. intros i l _ _ _. bcase.
      - intros m1 H. eapply mst_done; [exact H|]. intros i j Hi Hj _. bdec. unfold R.
        rewrite (tri_left_lower L) by lia. rewrite Nat.sub_0_r. auto. }
  - set (R := fun k i j => sum_from (dg i j) (i + 1) (k - (i + 1)) (fun k => a i k * c k j)).
    { apply wp_for_range with (I := fun k m' => mst m m' C all2 (fun i j => if j <? k then R (ext0 C) i j else c i j)); try lia.
      - split; [|apply changes_only_refl]. eapply mat_holds_on_ext; [|exact HC]. intros; bcase.
      - intros j m1 Hj Hst1.
        apply wp_for_range with (I := fun k m' => mst m m' C all2
          (fun i l => if l <? j then R (ext0 C) i l else if (l =? j) && (i <? k) then R k i j else c i l)); try lia.
        + eapply mst_ext; [|exact Hst1]. intros; bcase.
        + intros k m2 Hk Hst2. apply wp_bind.
          eapply wp_conseq; [eapply KA; eauto; try lia; intros; split; [lia|split; simpl; lia]|].
          intros [] m3 Hst3. eapply wp_conseq; [eapply KD; eauto; try lia; bcase|].
          intros [] m4 Hst4. eapply mst_ext; [|exact Hst4]. intros i l Hi _ _. unfold fset2. cbv beta.
          destruct (Nat.eqb_spec l j) as [->|]; [|bcase]. rewrite andb_true_r.
          destruct (Nat.eqb_spec i k) as [->|].
          { bdec. unfold R. replace (S k - (k + 1))%nat with 0 by lia. auto. }
          bdec. destruct (Nat.ltb_spec i k); [|bdec; auto]. bdec.
          unfold R. replace (S k - (i + 1))%nat with (S (k - (i + 1))) by lia. rewrite sum_from_S.
          replace (i + 1 + (k - (i + 1)))%nat with k by lia. auto.
        + intros m2 Hst2. eapply mst_ext; [|exact Hst2]. intros i l Hi _ _. bcase.
      - intros m1 H. eapply mst_done; [exact H|]. intros i j Hi Hj _. bdec. unfold R.
        rewrite (tri_left_upper L) by lia. replace (ext1 A) with (ext0 C) by lia. rewrite (sum_from_init LA), (add_comm LA). auto. }
Qed.

(** * Rank-k and rank-2k updates *)
Ltac mg M := apply wp_bind; eapply wp_mget_in with (A := M); [eassumption|eassumption|eassumption|lia|lia|exact I|].

Lemma syrk_alpha_ok : forall (m : mem O) alpha A C t a c,
  ext0 C = ext1 C -> ext0 A = ext0 C ->
  mat_holds m A a -> mat_holds_on m C (in_tri t) c -> mwritable_on C (in_tri t) ->
  disjoint (mcells A) (mcells_on C (in_tri t)) ->
  succeeds (symmetric_matrix_rank_k_update_alpha alpha A C t) m (fun _ m' =>
    mat_holds_on m' C (in_tri t) (fun i j => sum_from (c i j) 0 (ext1 A) (fun k => alpha * a i k * a j k)) /\
    changes_only m m' (mcells_on C (in_tri t))).
Proof.
  intros m alpha A C t a c Hsq HAC HA HC Hw Hd. unfold symmetric_matrix_rank_k_update_alpha.
  apply wp_tri_cols with (a := c); auto.
  intros i j m' g Hi Hj Ht Hst Hg. eapply wp_conseq.
  { apply wp_acc_m with (i := i) (j := j) (e := fun k => alpha * a i k * a j k); eauto; try lia.
    intros k m2 g' Q Hk Hst2 HQ. mg A. mg A. eapply wp_macc_add; eauto. }
  intros [] m2. rewrite Hg, Nat.sub_0_r. auto.
Qed.
Lemma syrk_ok : forall (m : mem O) A C t a c,
  ext0 C = ext1 C -> ext0 A = ext0 C ->
  mat_holds m A a -> mat_holds_on m C (in_tri t) c -> mwritable_on C (in_tri t) ->
  disjoint (mcells A) (mcells_on C (in_tri t)) ->
  succeeds (symmetric_matrix_rank_k_update A C t) m (fun _ m' =>
    mat_holds_on m' C (in_tri t) (fun i j => sum_from (c i j) 0 (ext1 A) (fun k => a i k * a j k)) /\
    changes_only m m' (mcells_on C (in_tri t))).
Proof.
  intros m A C t a c Hsq HAC HA HC Hw Hd. unfold symmetric_matrix_rank_k_update.
  apply wp_tri_cols with (a := c); auto.
  intros i j m' g Hi Hj Ht Hst Hg. eapply wp_conseq.
  { apply wp_acc_m with (i := i) (j := j) (e := fun k => a i k * a j k); eauto; try lia.
    intros k m2 g' Q Hk Hst2 HQ. mg A. mg A. eapply wp_macc_add; eauto. }
  intros [] m2. rewrite Hg, Nat.sub_0_r. auto.
Qed.
Lemma syr2k_ok : forall (m : mem O) A B C t a b c,
  ext0 C = ext1 C -> ext0 A = ext0 C -> ext0 B = ext0 C -> ext1 B = ext1 A ->
  mat_holds m A a -> mat_holds m B b -> mat_holds_on m C (in_tri t) c -> mwritable_on C (in_tri t) ->
  disjoint (mcells A) (mcells_on C (in_tri t)) -> disjoint (mcells B) (mcells_on C (in_tri t)) ->
  succeeds (symmetric_matrix_rank_2k_update A B C t) m (fun _ m' =>
    mat_holds_on m' C (in_tri t) (fun i j => sum_from (c i j) 0 (ext1 A) (fun k => a i k * b j k + b i k * a j k)) /\
    changes_only m m' (mcells_on C (in_tri t))).
Proof.
  intros m A B C t a b c Hsq HAC HBC HBA HA HB HC Hw HdA HdB. unfold symmetric_matrix_rank_2k_update.
  apply wp_tri_cols with (a := c); auto.
  intros i j m' g Hi Hj Ht Hst Hg. eapply wp_conseq.
  { apply wp_acc_m with (i := i) (j := j) (e := fun k => a i k * b j k + b i k * a j k); eauto; try lia.
    intros k m2 g' Q Hk Hst2 HQ. mg A. mg B. mg B. mg A. eapply wp_macc_add; eauto. }
  intros [] m2. rewrite Hg, Nat.sub_0_r. auto.
Qed.

Lemma herm_of_in : forall t (a : nat -> nat -> O) i j, in_tri t i j ->
  herm_of t a i j = (if i =? j then re (a i j) else a i j).
Proof. intros t a i j Ht. unfold herm_of. destruct t; simpl in *; bcase. Qed.

Lemma herk_alpha_ok : forall (m : mem O) alpha A C t a c,
  ext0 C = ext1 C -> ext0 A = ext0 C ->
  mat_holds m A a -> mat_holds_on m C (in_tri t) c -> mwritable_on C (in_tri t) ->
  disjoint (mcells A) (mcells_on C (in_tri t)) ->
  succeeds (hermitian_matrix_rank_k_update_alpha alpha A C t) m (fun _ m' =>
    mat_holds_on m' C (in_tri t) (fun i j => sum_from (herm_of t c i j) 0 (ext1 A) (fun k => alpha * a i k * conj (a j k))) /\
    changes_only m m' (mcells_on C (in_tri t))).
Proof.
  intros m alpha A C t a c Hsq HAC HA HC Hw Hd. unfold hermitian_matrix_rank_k_update_alpha.
  apply wp_herm_cols with (a := c); auto.
  intros i j m' g Hi Hj Ht Hst Hg. rewrite <- (herm_of_in t c i j Ht) in Hg. eapply wp_conseq.
  { apply wp_acc_m with (i := i) (j := j) (e := fun k => alpha * a i k * conj (a j k)); eauto; try lia.
    intros k m2 g' Q Hk Hst2 HQ. mg A. mg A. eapply wp_macc_add; eauto. }
  intros [] m2. rewrite Hg, Nat.sub_0_r. auto.
Qed.
Lemma herk_ok : forall (m : mem O) A C t a c,
  ext0 C = ext1 C -> ext0 A = ext0 C ->
  mat_holds m A a -> mat_holds_on m C (in_tri t) c -> mwritable_on C (in_tri t) ->
  disjoint (mcells A) (mcells_on C (in_tri t)) ->
  succeeds (hermitian_matrix_rank_k_update A C t) m (fun _ m' =>
    mat_holds_on m' C (in_tri t) (fun i j => sum_from (herm_of t c i j) 0 (ext1 A) (fun k => a i k * conj (a j k))) /\
    changes_only m m' (mcells_on C (in_tri t))).
Proof.
  intros m A C t a c Hsq HAC HA HC Hw Hd. unfold hermitian_matrix_rank_k_update.
  apply wp_herm_cols with (a := c); auto.
  intros i j m' g Hi Hj Ht Hst Hg. rewrite <- (herm_of_in t c i j Ht) in Hg. eapply wp_conseq.
  { apply wp_acc_m with (i := i) (j := j) (e := fun k => a i k * conj (a j k)); eauto; try lia.
    intros k m2 g' Q Hk Hst2 HQ. mg A. mg A. eapply wp_macc_add; eauto. }
  intros [] m2. rewrite Hg, Nat.sub_0_r. auto.
Qed.
Lemma her2k_ok : forall (m : mem O) A B C t a b c,
  ext0 C = ext1 C -> ext0 A = ext0 C -> ext0 B = ext0 C -> ext1 B = ext1 A ->
  mat_holds m A a -> mat_holds m B b -> mat_holds_on m C (in_tri t) c -> mwritable_on C (in_tri t) ->
  disjoint (mcells A) (mcells_on C (in_tri t)) -> disjoint (mcells B) (mcells_on C (in_tri t)) ->
  succeeds (hermitian_matrix_rank_2k_update A B C t) m (fun _ m' =>
    mat_holds_on m' C (in_tri t) (fun i j => sum_from (herm_of t c i j) 0 (ext1 A) (fun k => a i k * conj (b j k) + b i k * conj (a j k))) /\
    changes_only m m' (mcells_on C (in_tri t))).
Proof.
  intros m A B C t a b c Hsq HAC HBC HBA HA HB HC Hw HdA HdB. unfold hermitian_matrix_rank_2k_update.
  apply wp_herm_cols with (a := c); auto.
  intros i j m' g Hi Hj Ht Hst Hg. rewrite <- (herm_of_in t c i j Ht) in Hg. eapply wp_conseq.
  { apply wp_acc_m with (i := i) (j := j) (e := fun k => a i k * conj (b j k) + b i k * conj (a j k)); eauto; try lia.
    intros k m2 g' Q Hk Hst2 HQ. mg A. mg B. mg B. mg A. eapply wp_macc_add; eauto. }
  intros [] m2. rewrite Hg, Nat.sub_0_r. auto.
Qed.
End Pf2.

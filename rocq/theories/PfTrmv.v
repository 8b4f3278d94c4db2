(** Proofs about Blas2.v: triangular matrix-vector products. *)
From Coq Require Import List Arith ZArith Lia Bool.
From Verif Require Import Mem Scalar View Spec Wp Loops Sums Idx PfBlas1 Blas2 PfBlas2.
Import ListNotations.
Set Implicit Arguments.
Local Open Scope sc_scope.

Section Pf.
Context {O : ops}.

Definition expl (d : diagonal) := is_explicit d.

Lemma trmv_loop_ok : forall (m0 m : mem O) A t d x y a f y0,
  ext0 A = ext1 A -> vext x = ext1 A -> vext y = ext0 A ->
  mat_holds_on m0 A (stored t d) a -> vec_holds m0 x f -> vwritable y ->
  disjoint (mcells_on A (stored t d)) (vcells y) -> disjoint (vcells x) (vcells y) ->
  vst m0 m y y0 ->
  succeeds (trmv_loop A t d x y) m (fun _ m' =>
    vst m0 m' y (fun i => tri_row (y0 i) t d (ext1 A) a f i)).
Proof.
  intros m0 m A t d x y a f y0 Hsq Hx Hy HA Hf Hw HdA Hdx Hst0.
  assert (forall i j m' g (Q : O -> mem O -> Prop), i < ext1 A -> j < ext1 A -> stored t d i j -> vst m0 m' y g ->
            Q (a i j) m' -> succeeds (mget A i j) m' Q) as GA.
  { intros i j m' g Q Hi Hj HP Hst HQ. eapply wp_mget with (P := stored t d); eauto; try lia.
    eapply mat_holds_frame; [exact HA|apply Hst|exact HdA]. }
  assert (forall i m' g (Q : O -> mem O -> Prop), i < ext1 A -> vst m0 m' y g ->
            Q (f i) m' -> succeeds (vget x i) m' Q) as GX.
  { intros i m' g Q Hi Hst HQ. eapply wp_vget; eauto; try lia.
    eapply vec_holds_frame; [exact Hf|apply Hst|exact Hdx]. }
  destruct t; simpl.
  - set (lo := fun j : nat => if is_explicit d then j else (j + 1)%nat).
    assert (forall j, j <= lo j <= j + 1) as Hlo by (intros; unfold lo; destruct d; simpl; lia).
    apply wp_for_range with (I := fun k m' => vst m0 m' y
      (fun i => sum_from (y0 i) 0 (min k (i + 1)) (tri_term d a f i))); try lia.
    + eapply vst_ext; [|exact Hst0]. intros; auto.
    + intros j m1 Hj H1. apply wp_bind. fold (lo j).
      apply wp_for_range with (I := fun k m' => vst m0 m' y
        (fun i => sum_from (y0 i) 0 (if (lo j <=? i) && (i <? k) then S j else min j (i + 1)) (tri_term d a f i))).
      * specialize (Hlo j); lia.
      * eapply vst_ext; [|exact H1]. intros. bcase.
      * intros i m2 Hi H2. specialize (Hlo j). apply wp_bind. eapply GA; eauto; try lia.
        { split; simpl; [lia|]. intros ->. unfold lo in Hi; simpl in Hi. lia. }
        apply wp_bind. eapply GX; eauto; try lia.
        eapply wp_vacc_add; eauto; try lia. intros m3 H3. eapply vst_ext; [|exact H3].
        intros k Hk. unfold fset. destruct (Nat.eqb_spec k i) as [->|Hne]; [|bcase].
        bdec. replace (min j (i + 1)) with j by lia. rewrite sum_from_S. simpl. f_equal.
        unfold tri_term. destruct (Nat.eqb_spec i j) as [->|]; auto.
        unfold lo in Hi. destruct d; simpl in Hi; auto; lia.
      * intros m2 H2. unfold when. specialize (Hlo j). destruct d; simpl.
        { apply wp_ret. eapply vst_ext; [|exact H2]. intros i Hi. unfold lo; simpl. bcase.
          all: f_equal; lia. }
        { apply wp_bind. eapply wp_vget; [apply H2|lia|].
          apply wp_bind. eapply GX; eauto; try lia.
          eapply wp_vset; eauto; try lia. intros m3 H3. eapply vst_ext; [|exact H3].
          intros i Hi. unfold fset, lo. simpl. destruct (Nat.eqb_spec i j) as [->|].
          - bdec. replace (min j (j + 1)) with j by lia. replace (min (S j) (j + 1)) with (S j) by lia.
            rewrite sum_from_S. simpl. f_equal. unfold tri_term. bdec; auto.
          - bcase; f_equal; lia. }
    + intros m1 H1. eapply vst_ext; [|exact H1]. intros i Hi. cbv beta; replace (Nat.min (ext1 A) (i + 1)) with (i + 1)%nat by lia; reflexivity.
  - set (hi := fun j : nat => if is_explicit d then (j + 1)%nat else j).
    assert (forall j, j <= hi j <= j + 1) as Hhi by (intros; unfold hi; destruct d; simpl; lia).
    apply wp_for_range with (I := fun k m' => vst m0 m' y
      (fun i => sum_from (y0 i) i (k - i) (tri_term d a f i))); try lia.
    + eapply vst_ext; [|exact Hst0]. intros; auto.
    + intros j m1 Hj H1. apply wp_bind. fold (hi j).
      apply wp_for_range with (I := fun k m' => vst m0 m' y
        (fun i => sum_from (y0 i) i (if (i <? k) then S j - i else j - i) (tri_term d a f i))).
      * specialize (Hhi j); lia.
      * eapply vst_ext; [|exact H1]. intros. bcase.
      * intros i m2 Hi H2. specialize (Hhi j). apply wp_bind. eapply GA; eauto; try lia.
        { split; simpl; [lia|]. intros ->. unfold hi in Hi; simpl in Hi. lia. }
        apply wp_bind. eapply GX; eauto; try lia.
        eapply wp_vacc_add; eauto; try lia. intros m3 H3. eapply vst_ext; [|exact H3].
        intros k Hk. unfold fset. destruct (Nat.eqb_spec k i) as [->|Hne]; [|bcase].
        bdec. replace (S j - i)%nat with (S (j - i)) by lia. rewrite sum_from_S. f_equal.
        replace (i + (j - i))%nat with j by lia.
        unfold tri_term. destruct (Nat.eqb_spec i j) as [->|]; auto.
        unfold hi in Hi. destruct d; simpl in Hi; auto; lia.
      * intros m2 H2. unfold when. specialize (Hhi j). destruct d; simpl.
        { apply wp_ret. eapply vst_ext; [|exact H2]. intros i Hi. unfold hi; simpl. bcase.
          all: f_equal; lia. }
        { apply wp_bind. eapply wp_vget; [apply H2|lia|].
          apply wp_bind. eapply GX; eauto; try lia.
          eapply wp_vset; eauto; try lia. intros m3 H3. eapply vst_ext; [|exact H3].
          intros i Hi. unfold fset, hi. simpl. destruct (Nat.eqb_spec i j) as [->|].
          - bdec. replace (S j - j)%nat with 1 by lia. rewrite Nat.sub_diag, sum_from_head, !sum_from_0.
            f_equal. unfold tri_term. bdec; auto.
          - bcase; f_equal; lia. }
    + auto.
Qed.

Lemma trmv_ok : forall (m : mem O) A t d x y a f,
  ext0 A = ext1 A -> vext x = ext1 A -> vext y = ext0 A ->
  mat_holds_on m A (stored t d) a -> vec_holds m x f -> vwritable y -> allocated m (vcells y) ->
  disjoint (mcells_on A (stored t d)) (vcells y) -> disjoint (vcells x) (vcells y) ->
  succeeds (triangular_matrix_vector_product A t d x y) m (fun _ m' =>
    vec_holds m' y (tri_row zero t d (ext1 A) a f) /\ changes_only m m' (vcells y)).
Proof.
  intros m A t d x y a f Hsq Hx Hy HA Hf Hw Hal HdA Hdx.
  apply wp_bind. eapply wp_conseq; [apply zero_rows_ok; auto|]. intros [] m1 H1.
  eapply wp_conseq; [eapply trmv_loop_ok; eauto|].
  intros [] m2 H2. eapply vst_done; [exact H2|]. auto.
Qed.
Lemma trmv_upd_ok : forall (m : mem O) A t d x y z a f g,
  ext0 A = ext1 A -> vext x = ext1 A -> vext y = ext0 A -> vext z = ext0 A ->
  mat_holds_on m A (stored t d) a -> vec_holds m x f -> vec_holds m y g -> vwritable z -> allocated m (vcells z) ->
  disjoint (mcells_on A (stored t d)) (vcells z) -> disjoint (vcells x) (vcells z) -> disjoint_or_aligned_v y z ->
  succeeds (triangular_matrix_vector_product_upd A t d x y z) m (fun _ m' =>
    vec_holds m' z (fun i => tri_row (g i) t d (ext1 A) a f i) /\ changes_only m m' (vcells z)).
Proof.
  intros m A t d x y z a f g Hsq Hx Hy Hz HA Hf Hg Hw Hal HdA Hdx Hdy.
  apply wp_bind. eapply wp_conseq; [eapply copy_rows_ok; eauto|]. intros [] m1 H1.
  eapply wp_conseq; [eapply trmv_loop_ok; eauto|].
  intros [] m2 H2. eapply vst_done; [exact H2|]. auto.
Qed.

(** In place: with ring laws and commuting products the result is the triangular matrix times the
    old contents. *)
Lemma trmv_inplace_ok : forall (m : mem O) A t d y a f,
  ring_laws O -> mul_commutes O ->
  ext0 A = ext1 A -> vext y = ext0 A ->
  mat_holds_on m A (stored t d) a -> vec_holds m y f -> vwritable y ->
  disjoint (mcells_on A (stored t d)) (vcells y) ->
  succeeds (triangular_matrix_vector_product_inplace A t d y) m (fun _ m' =>
    vec_holds m' y (fun i => bigsum (ext1 A) (fun j => tri_of t d a i j * f j)) /\ changes_only m m' (vcells y)).
Proof.
  intros m A t d y a f L C Hsq Hy HA Hf Hw HdA. pose proof (ring_add L) as LA.
  assert (forall i j m' g (Q : O -> mem O -> Prop), i < ext1 A -> j < ext1 A -> stored t d i j -> vst m m' y g ->
            Q (a i j) m' -> succeeds (mget A i j) m' Q) as GA.
  { intros i j m' g Q Hi Hj HP Hst HQ. eapply wp_mget with (P := stored t d); eauto; try lia.
    eapply mat_holds_frame; [exact HA|apply Hst|exact HdA]. }
  apply wp_conseq with (Q := fun _ m' => vst m m' y (fun i => tri_row zero t d (ext1 A) a f i)).
  2: { intros [] m' H. eapply vst_done; [exact H|]. intros i Hi. cbv beta.
       rewrite tri_row_sum; auto; try lia. apply (add_0_l LA). }
  set (dg := fun i => diag_term d (a i i) (f i)).
  destruct t; simpl.
  - (* after processing columns >= k *)
    apply wp_for_down with (I := fun k m' => vst m m' y
      (fun i => if k <=? i then sum_from zero k (i - k) (fun j => a i j * f j) + dg i else f i)).
    + split; [|apply changes_only_refl]. eapply vec_holds_ext; [|exact Hf]. intros; bcase.
    + intros j m1 Hj H1. apply wp_bind. eapply wp_vget; [apply H1|lia|]. bdec.
      apply wp_bind.
      apply wp_for_range with (I := fun k m' => vst m m' y
        (fun i => if S j <=? i then sum_from zero (if i <? k then j else S j) (i - (if i <? k then j else S j)) (fun j => a i j * f j) + dg i else f i)); try lia.
      * eapply vst_ext; [|exact H1]. intros. bcase.
      * intros i m2 Hi H2. apply wp_bind. eapply GA; eauto; try lia.
        { split; simpl; lia. }
        eapply wp_vacc_add; eauto; try lia. intros m3 H3. eapply vst_ext; [|exact H3].
        intros k Hk. unfold fset. destruct (Nat.eqb_spec k i) as [->|Hne]; [|bcase].
        bdec. replace (i - j)%nat with (S (i - S j)) by lia. rewrite (sum_rev_head LA).
        rewrite <- !(add_assoc LA). f_equal. apply (add_comm LA).
      * intros m2 H2. unfold when. unfold dg, diag_term in *. destruct d; simpl in *.
        { apply wp_bind. eapply wp_vget; [apply H2|lia|]. bdec.
          apply wp_bind. eapply GA; eauto; try lia. { split; simpl; [lia|discriminate]. }
          eapply wp_vset; eauto; try lia. intros m3 H3. eapply vst_ext; [|exact H3].
          intros i Hi. unfold fset. destruct (Nat.eqb_spec i j) as [->|].
          - bdec. rewrite Nat.sub_diag, sum_from_0, (add_0_l LA). apply C.
          - bcase. }
        { apply wp_ret. eapply vst_ext; [|exact H2]. intros i Hi. cbv beta.
          destruct (Nat.eq_dec i j) as [->|]; [|bcase].
          bdec. rewrite Nat.sub_diag, sum_from_0, (add_0_l LA). auto. }
    + intros m1 H1. eapply vst_ext; [|exact H1]. intros i Hi. cbv beta.
      simpl. rewrite Nat.sub_0_r. symmetry. apply (tri_row_lower zero d (ext1 A) a f i).
  - apply wp_for_range with (I := fun k m' => vst m m' y
      (fun i => if i <? k then sum_from (dg i) (i + 1) (k - (i + 1)) (fun j => a i j * f j) else f i)); try lia.
    + split; [|apply changes_only_refl]. eapply vec_holds_ext; [|exact Hf]. intros; bcase.
    + intros j m1 Hj H1. apply wp_bind. eapply wp_vget; [apply H1|lia|]. bdec.
      apply wp_bind.
      apply wp_for_range with (I := fun k m' => vst m m' y
        (fun i => if i <? j then sum_from (dg i) (i + 1) ((if i <? k then S j else j) - (i + 1)) (fun j => a i j * f j) else f i)); try lia.
      * eapply vst_ext; [|exact H1]. intros. bcase.
      * intros i m2 Hi H2. apply wp_bind. eapply GA; eauto; try lia.
        { split; simpl; lia. }
        eapply wp_vacc_add; eauto; try lia. intros m3 H3. eapply vst_ext; [|exact H3].
        intros k Hk. unfold fset. destruct (Nat.eqb_spec k i) as [->|Hne]; [|bcase].
        bdec. replace (S j - (i + 1))%nat with (S (j - (i + 1))) by lia. rewrite sum_from_S.
        do 2 f_equal; [f_equal; lia | f_equal; lia].
      * intros m2 H2. unfold when. unfold dg, diag_term in *. destruct d; simpl in *.
        { apply wp_bind. eapply wp_vget; [apply H2|lia|]. bdec.
          apply wp_bind. eapply GA; eauto; try lia. { split; simpl; [lia|discriminate]. }
          eapply wp_vset; eauto; try lia. intros m3 H3. eapply vst_ext; [|exact H3].
          intros i Hi. unfold fset. destruct (Nat.eqb_spec i j) as [->|].
          - bdec. replace (S j - (j + 1))%nat with 0 by lia. rewrite sum_from_0. apply C.
          - bcase. }
        { apply wp_ret. eapply vst_ext; [|exact H2]. intros i Hi. cbv beta.
          destruct (Nat.eq_dec i j) as [->|]; [|bcase].
          bdec. replace (S j - (j + 1))%nat with 0 by lia. auto. }
    + intros m1 H1. eapply vst_ext; [|exact H1]. intros i Hi. bdec.
      pose proof (tri_row_upper L zero d a f (i := i) (n := ext1 A)) as E. unfold tri_row in E. rewrite E by lia.
      rewrite (sum_from_init LA), (add_comm LA). auto.
Qed.
End Pf.

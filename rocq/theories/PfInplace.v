(** In-place triangular products: the value of every element, operation by operation. *)
From Coq Require Import List Arith ZArith Lia Bool.
From Verif Require Import Mem Scalar View Spec SpecInp Wp Loops Sums Idx PfBlas1 Blas2 PfBlas2 PfTrmv PfRank Blas3 PfBlas3.
Import ListNotations.
Set Implicit Arguments.
Local Open Scope sc_scope.

Section Pf.
Context {O : ops}.

Lemma added_snoc : forall (s : O) l k f, added s (l ++ [k]) f = added s l f + f k.
Proof. intros. unfold added. rewrite fold_left_app. reflexivity. Qed.
Lemma added_up : forall (s : O) lo n f, added s (seq lo (S n)) f = added s (seq lo n) f + f (lo + n)%nat.
Proof. intros. rewrite seq_S. apply added_snoc. Qed.
Lemma added_down : forall (s : O) k i f, k < i -> added s (rev (seq k (i - k))) f = added s (rev (seq (S k) (i - S k))) f + f k.
Proof.
  intros. replace (i - k)%nat with (S (i - S k)) by lia. cbn [seq rev]. apply added_snoc.
Qed.

Lemma trmv_inplace_exact : forall (m : mem O) A t d y a f,
  ext0 A = ext1 A -> vext y = ext0 A ->
  mat_holds_on m A (stored t d) a -> vec_holds m y f -> vwritable y ->
  disjoint (mcells_on A (stored t d)) (vcells y) ->
  succeeds (triangular_matrix_vector_product_inplace A t d y) m (fun _ m' =>
    vec_holds m' y (fun i => added (times_diag d (f i * a i i) (f i)) (row_order t (ext1 A) i) (fun j => a i j * f j)) /\
    changes_only m m' (vcells y)).
Proof.
  intros m A t d y a f Hsq Hy HA Hf Hw HdA.
  assert (forall i j m' g (Q : O -> mem O -> Prop), i < ext1 A -> j < ext1 A -> stored t d i j -> vst m m' y g ->
            Q (a i j) m' -> succeeds (mget A i j) m' Q) as GA.
  { intros i j m' g Q Hi Hj HP Hst HQ. eapply wp_mget with (P := stored t d); eauto; try lia.
    eapply mat_holds_frame; [exact HA|apply Hst|exact HdA]. }
  set (dg := fun i => times_diag d (f i * a i i) (f i)). set (e := fun i j => a i j * f j).
  apply wp_conseq with (Q := fun _ m' => vst m m' y (fun i => added (dg i) (row_order t (ext1 A) i) (e i))).
  2: { intros [] m' H. eapply vst_done; [exact H|]. auto. }
  destruct t; simpl.
  - apply wp_for_down with (I := fun k m' => vst m m' y
      (fun i => if k <=? i then added (dg i) (rev (seq k (i - k))) (e i) else f i)).
    + split; [|apply changes_only_refl]. eapply vec_holds_ext; [|exact Hf]. intros; bcase.
    + intros j m1 Hj H1. apply wp_bind. eapply wp_vget; [apply H1|lia|]. bdec.
      apply wp_bind.
      apply wp_for_range with (I := fun k m' => vst m m' y
        (fun i => if S j <=? i then added (dg i) (rev (seq (if i <? k then j else S j) (i - (if i <? k then j else S j)))) (e i) else f i)); try lia.
      * eapply vst_ext; [|exact H1]. intros. bcase.
      * intros i m2 Hi H2. apply wp_bind. eapply GA; eauto; try lia.
        { split; simpl; lia. }
        eapply wp_vacc_add; eauto; try lia. intros m3 H3. eapply vst_ext; [|exact H3].
        intros k Hk. unfold fset. destruct (Nat.eqb_spec k i) as [->|Hne]; [|bcase].
        bdec. rewrite (@added_down _ j) by lia. auto.
      * intros m2 H2. unfold when. unfold dg, times_diag in *. destruct d; simpl in *.
        { apply wp_bind. eapply wp_vget; [apply H2|lia|]. bdec.
          apply wp_bind. eapply GA; eauto; try lia. { split; simpl; [lia|discriminate]. }
          eapply wp_vset; eauto; try lia. intros m3 H3. eapply vst_ext; [|exact H3].
          intros i Hi. unfold fset. destruct (Nat.eqb_spec i j) as [->|].
          - bdec. rewrite Nat.sub_diag. auto.
          - bcase. }
        { apply wp_ret. eapply vst_ext; [|exact H2]. intros i Hi. cbv beta.
          destruct (Nat.eq_dec i j) as [->|]; [|bcase].
          bdec. rewrite Nat.sub_diag. auto. }
    + intros m1 H1. eapply vst_ext; [|exact H1]. intros i Hi. cbv beta.
      simpl. rewrite Nat.sub_0_r. auto.
  - apply wp_for_range with (I := fun k m' => vst m m' y
      (fun i => if i <? k then added (dg i) (seq (i + 1) (k - (i + 1))) (e i) else f i)); try lia.
    + split; [|apply changes_only_refl]. eapply vec_holds_ext; [|exact Hf]. intros; bcase.
    + intros j m1 Hj H1. apply wp_bind. eapply wp_vget; [apply H1|lia|]. bdec.
      apply wp_bind.
      apply wp_for_range with (I := fun k m' => vst m m' y
        (fun i => if i <? j then added (dg i) (seq (i + 1) ((if i <? k then S j else j) - (i + 1))) (e i) else f i)); try lia.
      * eapply vst_ext; [|exact H1]. intros. bcase.
      * intros i m2 Hi H2. apply wp_bind. eapply GA; eauto; try lia.
        { split; simpl; lia. }
        eapply wp_vacc_add; eauto; try lia. intros m3 H3. eapply vst_ext; [|exact H3].
        intros k Hk. unfold fset. destruct (Nat.eqb_spec k i) as [->|Hne]; [|bcase].
        bdec. replace (S j - (i + 1))%nat with (S (j - (i + 1))) by lia. rewrite added_up.
        replace (i + 1 + (j - (i + 1)))%nat with j by lia. auto.
      * intros m2 H2. unfold when. unfold dg, times_diag in *. destruct d; simpl in *.
        { apply wp_bind. eapply wp_vget; [apply H2|lia|]. bdec.
          apply wp_bind. eapply GA; eauto; try lia. { split; simpl; [lia|discriminate]. }
          eapply wp_vset; eauto; try lia. intros m3 H3. eapply vst_ext; [|exact H3].
          intros i Hi. unfold fset. destruct (Nat.eqb_spec i j) as [->|].
          - bdec. replace (S j - (j + 1))%nat with 0 by lia. auto.
          - bcase. }
        { apply wp_ret. eapply vst_ext; [|exact H2]. intros i Hi. cbv beta.
          destruct (Nat.eq_dec i j) as [->|]; [|bcase].
          bdec. replace (S j - (j + 1))%nat with 0 by lia. auto. }
    + intros m1 H1. eapply vst_ext; [|exact H1]. intros i Hi. bdec. auto.
Qed.

Lemma trmm_right_inplace_exact : forall (m : mem O) A t d C a c,
  ext0 A = ext1 A -> ext1 C = ext0 A ->
  mat_holds_on m A (stored t d) a -> mat_holds m C c -> mwritable C ->
  disjoint (mcells_on A (stored t d)) (mcells C) ->
  succeeds (triangular_matrix_right_product A t d C) m (fun _ m' =>
    mat_holds m' C (fun i j => added (times_diag d (c i j * a j j) (c i j)) (col_order t (ext1 A) j) (fun k => c i k * a k j)) /\
    changes_only m m' (mcells C)).
Proof.
  intros m A t d C a c Hsq H1 HA HC Hw HdA.
  set (dg := fun i j => times_diag d (c i j * a j j) (c i j)).
  (* scaling column j by the diagonal *)
  assert (forall j m' g, j < ext1 C -> mst m m' C all2 g -> (forall i, g i j = c i j) ->
     succeeds (when (is_explicit d) (for_range 0 (ext0 C) (fun i =>
        bind (mget C i j) (fun c => bind (mget A j j) (fun a => mset C i j (c * a)))))) m'
       (fun _ m'' => mst m m'' C all2 (fun i l => if l =? j then dg i j else g i l))) as KD.
  { intros j m' g Hj Hst Hg. unfold when. unfold dg, times_diag. destruct d; simpl.
    - apply wp_for_range with (I := fun k m' => mst m m' C all2 (fun i l => if (l =? j) && (i <? k) then c i j * a j j else g i l)); try lia.
      + eapply mst_ext; [|exact Hst]. intros; bcase.
      + intros i m1 Hi Hst1. apply wp_bind. eapply wp_mget; [apply Hst1|lia|lia|exact I|]. bdec.
        apply wp_bind. eapply wp_mget_in with (A := A); eauto; try lia. { split; simpl; [destruct t; simpl; lia|discriminate]. }
        eapply wp_mset; [exact Hw|exact Hst1|lia|lia|exact I|]. intros m2 Hst2.
        eapply mst_ext; [|exact Hst2]. intros k l _ _ _. unfold fset2. rewrite Hg. bcase.
      + intros m1 Hst1. eapply mst_ext; [|exact Hst1]. intros; bcase.
    - apply wp_ret. eapply mst_ext; [|exact Hst]. intros i l _ _ _. bcase. }
  (* adding column k of C times A(k,j) to column j *)
  assert (forall j k m' g, j < ext1 C -> k < ext1 C -> k <> j -> stored t d k j -> mst m m' C all2 g ->
     succeeds (for_range 0 (ext0 C) (fun i =>
        bind (mget C i k) (fun c => bind (mget A k j) (fun a => macc_add C i j (c * a))))) m'
       (fun _ m'' => mst m m'' C all2 (fun i l => if l =? j then g i j + g i k * a k j else g i l))) as KA.
  { intros j k m' g Hj Hk Hkj Hs Hst.
    apply wp_for_range with (I := fun k' m' => mst m m' C all2 (fun i l => if (l =? j) && (i <? k') then g i j + g i k * a k j else g i l)); try lia.
    - eapply mst_ext; [|exact Hst]. intros; bcase.
    - intros i m1 Hi Hst1. apply wp_bind. eapply wp_mget; [apply Hst1|lia|lia|exact I|]. bdec.
      apply wp_bind. eapply wp_mget_in with (A := A); eauto; try lia.
      eapply wp_macc_add; [exact Hw|exact Hst1|lia|lia|exact I|]. intros m2 Hst2.
      eapply mst_ext; [|exact Hst2]. intros k' l _ _ _. unfold fset2. bdec. bcase.
    - intros m1 Hst1. eapply mst_ext; [|exact Hst1]. intros; bcase. }
  unfold triangular_matrix_right_product. destruct t.
  - set (R := fun n i j => added (dg i j) (seq (j + 1) (n - (j + 1))) (fun k => c i k * a k j)).
    apply wp_for_range with (I := fun k m' => mst m m' C all2 (fun i j => if j <? k then R (ext1 C) i j else c i j)); try lia.
    + split; [|apply changes_only_refl]. eapply mat_holds_on_ext; [|exact HC]. intros; bcase.
    + intros j m1 Hj Hst1. apply wp_bind. eapply wp_conseq; [eapply KD; eauto; try lia; intros; bcase|].
      intros [] m2 Hst2.
      apply wp_for_range with (I := fun k m' => mst m m' C all2
        (fun i l => if l <? j then R (ext1 C) i l else if l =? j then R k i j else c i l)); try lia.
      * unfold R at 2. rewrite Nat.sub_diag. eapply mst_ext; [|exact Hst2]. intros; bcase.
      * intros k m3 Hk Hst3. eapply wp_conseq; [eapply KA; eauto; try lia; split; simpl; lia|].
        intros [] m4 Hst4. eapply mst_ext; [|exact Hst4]. intros i l _ _ _. cbv beta.
        destruct (Nat.eqb_spec l j) as [->|]; [|bcase]. bdec. unfold R.
        replace (S k - (j + 1))%nat with (S (k - (j + 1))) by lia. rewrite added_up.
        replace (j + 1 + (k - (j + 1)))%nat with k by lia. auto.
      * intros m3 Hst3. eapply mst_ext; [|exact Hst3]. intros i l _ _ _. cbv beta.
        destruct (Nat.eq_dec l j) as [->|]; [|bcase]. bdec. auto.
    + intros m1 Hst1. eapply mst_done; [exact Hst1|]. intros i j Hi Hj _. bdec. unfold R, col_order.
      replace (ext1 A) with (ext1 C) by lia. auto.
  - set (R := fun n i j => added (dg i j) (seq 0 n) (fun k => c i k * a k j)).
    apply wp_for_down with (I := fun k m' => mst m m' C all2 (fun i j => if k <=? j then R j i j else c i j)); try lia.
    + split; [|apply changes_only_refl]. eapply mat_holds_on_ext; [|exact HC]. intros; bcase.
    + intros j m1 Hj Hst1. apply wp_bind. eapply wp_conseq; [eapply KD; eauto; try lia; intros; bcase|].
      intros [] m2 Hst2.
      apply wp_for_range with (I := fun k m' => mst m m' C all2
        (fun i l => if j <? l then R l i l else if l =? j then R k i j else c i l)); try lia.
      * eapply mst_ext; [|exact Hst2]. intros; bcase.
      * intros k m3 Hk Hst3. eapply wp_conseq; [eapply KA; eauto; try lia; split; simpl; lia|].
        intros [] m4 Hst4. eapply mst_ext; [|exact Hst4]. intros i l _ _ _. cbv beta.
        destruct (Nat.eqb_spec l j) as [->|]; [|bcase]. bdec. unfold R. rewrite added_up. auto.
      * intros m3 Hst3. eapply mst_ext; [|exact Hst3]. intros i l _ _ _. cbv beta.
        destruct (Nat.eq_dec l j) as [->|]; [|bcase]. bdec. auto.
    + intros m1 Hst1. eapply mst_done; [exact Hst1|]. intros i j Hi Hj _. bdec. auto.
Qed.

Lemma trmm_left_inplace_exact : forall (m : mem O) A t d C a c,
  ext0 A = ext1 A -> ext0 C = ext0 A ->
  mat_holds_on m A (stored t d) a -> mat_holds m C c -> mwritable C ->
  disjoint (mcells_on A (stored t d)) (mcells C) ->
  succeeds (triangular_matrix_left_product A t d C) m (fun _ m' =>
    mat_holds m' C (fun i j => added (times_diag d (a i i * c i j) (c i j)) (row_order t (ext1 A) i) (fun k => a i k * c k j)) /\
    changes_only m m' (mcells C)).
Proof.
  intros m A t d C a c Hsq H1 HA HC Hw HdA.
  set (dg := fun i j => times_diag d (a i i * c i j) (c i j)).
  (* scaling element (k,j) by the diagonal *)
  assert (forall k j m' g, k < ext0 C -> j < ext1 C -> mst m m' C all2 g -> g k j = c k j ->
     succeeds (when (is_explicit d) (bind (mget A k k) (fun a => bind (mget C k j) (fun c => mset C k j (a * c))))) m'
       (fun _ m'' => mst m m'' C all2 (fset2 g k j (dg k j)))) as KD.
  { intros k j m' g Hk Hj Hst Hg. unfold when. unfold dg, times_diag. destruct d; simpl.
    - apply wp_bind. eapply wp_mget_in with (A := A); eauto; try lia. { split; simpl; [destruct t; simpl; lia|discriminate]. }
      apply wp_bind. eapply wp_mget; [apply Hst|lia|lia|exact I|].
      eapply wp_mset; [exact Hw|exact Hst|lia|lia|exact I|]. rewrite Hg. auto.
    - apply wp_ret. eapply mst_ext; [|exact Hst]. intros i l _ _ _. unfold fset2. bcase. }
  (* adding A(i,k) C(k,j) to the elements lo <= i < hi of column j *)
  assert (forall k j lo hi m' g, k < ext0 C -> j < ext1 C -> lo <= hi <= ext0 C -> (forall i, lo <= i < hi -> i <> k /\ stored t d i k) ->
     mst m m' C all2 g ->
     succeeds (for_range lo hi (fun i =>
        bind (mget A i k) (fun a => bind (mget C k j) (fun c => macc_add C i j (a * c))))) m'
       (fun _ m'' => mst m m'' C all2 (fun i l => if (l =? j) && ((lo <=? i) && (i <? hi)) then g i j + a i k * g k j else g i l))) as KA.
  { intros k j lo hi m' g Hk Hj Hlh Hs Hst.
    apply wp_for_range with (I := fun k' m' => mst m m' C all2 (fun i l => if (l =? j) && ((lo <=? i) && (i <? k')) then g i j + a i k * g k j else g i l)); try lia.
    - eapply mst_ext; [|exact Hst]. intros; bcase.
    - intros i m1 Hi Hst1. destruct (Hs i Hi).
      apply wp_bind. eapply wp_mget_in with (A := A); eauto; try lia.
      apply wp_bind. eapply wp_mget; [apply Hst1|lia|lia|exact I|].
      eapply wp_macc_add; [exact Hw|exact Hst1|lia|lia|exact I|]. intros m2 Hst2.
      eapply mst_ext; [|exact Hst2]. intros k' l _ _ _. unfold fset2.
      assert ((lo <=? k) && (k <? i) = false) as Ek.
      { destruct ((lo <=? k) && (k <? i)) eqn:E; auto. apply andb_prop in E; destruct E as [E1 E2].
        apply Nat.leb_le in E1; apply Nat.ltb_lt in E2. destruct (Hs k); lia. }
      cbv beta. rewrite Ek. rewrite andb_false_r. bdec. bcase.
    - auto. }
  unfold triangular_matrix_left_product. destruct t.
  - set (R := fun k i j => added (dg i j) (rev (seq k (i - k))) (fun k => a i k * c k j)).
    { apply wp_for_range with (I := fun k m' => mst m m' C all2 (fun i j => if j <? k then R 0 i j else c i j)); try lia.
      - split; [|apply changes_only_refl]. eapply mat_holds_on_ext; [|exact HC]. intros; bcase.
      - intros j m1 Hj Hst1.
        apply wp_for_down with (I := fun k m' => mst m m' C all2
          (fun i l => if l <? j then R 0 i l else if (l =? j) && (k <=? i) then R k i j else c i l)).
        + eapply mst_ext; [|exact Hst1]. intros; bcase.
        + intros k m2 Hk Hst2. apply wp_bind.
          eapply wp_conseq; [eapply KA; eauto; try lia; intros; split; [lia|split; simpl; lia]|].
          intros [] m3 Hst3. eapply wp_conseq; [eapply KD; eauto; bcase|].
          intros [] m4 Hst4. eapply mst_ext; [|exact Hst4]. intros i l Hi _ _. unfold fset2. cbv beta.
          destruct (Nat.eqb_spec l j) as [->|]; [|bcase]. rewrite andb_true_r.
          destruct (Nat.eqb_spec i k) as [->|].
          { bdec. unfold R. rewrite Nat.sub_diag. auto. }
          bdec. destruct (Nat.leb_spec k i); [|bdec; auto]. bdec.
          unfold R. rewrite (@added_down _ k) by lia. auto.
        + intros m2 Hst2. eapply mst_ext; [|exact Hst2]. intros i l _ _ _. bcase.
      - intros m1 H. eapply mst_done; [exact H|]. intros i j Hi Hj _. bdec. unfold R, row_order.
        rewrite Nat.sub_0_r. auto. }
  - set (R := fun k i j => added (dg i j) (seq (i + 1) (k - (i + 1))) (fun k => a i k * c k j)).
    { apply wp_for_range with (I := fun k m' => mst m m' C all2 (fun i j => if j <? k then R (ext0 C) i j else c i j)); try lia.
      - split; [|apply changes_only_refl]. eapply mat_holds_on_ext; [|exact HC]. intros; bcase.
      - intros j m1 Hj Hst1.
        apply wp_for_range with (I := fun k m' => mst m m' C all2
          (fun i l => if l <? j then R (ext0 C) i l else if (l =? j) && (i <? k) then R k i j else c i l)); try lia.
        + eapply mst_ext; [|exact Hst1]. intros; bcase.
        + intros k m2 Hk Hst2. apply wp_bind.
          eapply wp_conseq; [eapply KA; eauto; try lia; intros; split; [lia|split; simpl; lia]|].
          intros [] m3 Hst3. eapply wp_conseq; [eapply KD; eauto; try lia; bcase|].
          intros [] m4 Hst4. eapply mst_ext; [|exact Hst4]. intros i l Hi _ _. unfold fset2. cbv beta.
          destruct (Nat.eqb_spec l j) as [->|]; [|bcase]. rewrite andb_true_r.
          destruct (Nat.eqb_spec i k) as [->|].
          { bdec. unfold R. replace (S k - (k + 1))%nat with 0 by lia. auto. }
          bdec. destruct (Nat.ltb_spec i k); [|bdec; auto]. bdec.
          unfold R. replace (S k - (i + 1))%nat with (S (k - (i + 1))) by lia. rewrite added_up.
          replace (i + 1 + (k - (i + 1)))%nat with k by lia. auto.
        + intros m2 Hst2. eapply mst_ext; [|exact Hst2]. intros i l Hi _ _. bcase.
      - intros m1 H. eapply mst_done; [exact H|]. intros i j Hi Hj _. bdec. unfold R, row_order.
        replace (ext1 A) with (ext0 C) by lia. auto. }
Qed.
End Pf.

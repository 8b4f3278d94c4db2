(** Proofs about Blas2.v: matrix-vector products and rank-1 / rank-2 updates. *)
From Coq Require Import List Arith ZArith Lia Bool.
From Verif Require Import Mem Scalar View Spec Wp Loops Idx PfBlas1 Blas2.
Import ListNotations.
Set Implicit Arguments.
Local Open Scope sc_scope.

Section Pf.
Context {O : ops}.

(** * Accumulation into an output element *)
Lemma wp_vacc_add : forall (m0 m : mem O) (y : vec O) g i e (Q : unit -> mem O -> Prop),
  vwritable y -> vst m0 m y g -> i < vext y ->
  (forall m', vst m0 m' y (fset g i (g i + e)) -> Q tt m') -> succeeds (vacc_add y i e) m Q.
Proof.
  intros m0 m y g i e Q Hw Hst Hi HQ. unfold vacc_add. apply wp_bind.
  eapply wp_vget; [apply Hst | auto |]. eapply wp_vset; eauto.
Qed.
Lemma wp_macc_add : forall (m0 m : mem O) (A : mat O) (P : nat -> nat -> Prop) g i j e (Q : unit -> mem O -> Prop),
  mwritable_on A P -> mst m0 m A P g -> i < ext0 A -> j < ext1 A -> P i j ->
  (forall m', mst m0 m' A P (fset2 g i j (g i j + e)) -> Q tt m') -> succeeds (macc_add A i j e) m Q.
Proof.
  intros m0 m A P g i j e Q Hw Hst Hi Hj HP HQ. unfold macc_add. apply wp_bind.
  eapply wp_mget; [apply Hst | auto | auto | auto |]. eapply wp_mset; eauto.
Qed.

(** A loop whose iterations each add [e j] to the same element i. *)
Lemma wp_acc_v : forall (m0 m : mem O) (y : vec O) g i lo hi (e : nat -> O) body,
  lo <= hi -> vst m0 m y g -> i < vext y ->
  (forall j m' g' (Q : unit -> mem O -> Prop), lo <= j < hi -> vst m0 m' y g' ->
     (forall m'', vst m0 m'' y (fset g' i (g' i + e j)) -> Q tt m'') -> succeeds (body j) m' Q) ->
  succeeds (for_range lo hi body) m (fun _ m' => vst m0 m' y (fset g i (sum_from (g i) lo (hi - lo) e))).
Proof.
  intros m0 m y g i lo hi e body Hl Hst Hi Hb.
  apply wp_for_range with (I := fun k m' => vst m0 m' y (fset g i (sum_from (g i) lo (k - lo) e))); auto.
  - rewrite Nat.sub_diag. eapply vst_ext; [|exact Hst]. intros k Hk. unfold fset. bcase.
  - intros j m' Hj HI. eapply Hb; eauto. intros m'' H. eapply vst_ext; [|exact H].
    intros k Hk. replace (S j - lo)%nat with (S (j - lo)) by lia. rewrite sum_from_S.
    unfold fset. rewrite Nat.eqb_refl. replace (lo + (j - lo))%nat with j by lia. bcase.
Qed.
Lemma wp_acc_m : forall (m0 m : mem O) (C : mat O) (P : nat -> nat -> Prop) g i j lo hi (e : nat -> O) body,
  lo <= hi -> mst m0 m C P g ->
  (forall k m' g' (Q : unit -> mem O -> Prop), lo <= k < hi -> mst m0 m' C P g' ->
     (forall m'', mst m0 m'' C P (fset2 g' i j (g' i j + e k)) -> Q tt m'') -> succeeds (body k) m' Q) ->
  succeeds (for_range lo hi body) m (fun _ m' => mst m0 m' C P (fset2 g i j (sum_from (g i j) lo (hi - lo) e))).
Proof.
  intros m0 m C P g i j lo hi e body Hl Hst Hb.
  apply wp_for_range with (I := fun k m' => mst m0 m' C P (fset2 g i j (sum_from (g i j) lo (k - lo) e))); auto.
  - rewrite Nat.sub_diag. eapply mst_ext; [|exact Hst]. intros k l Hk Hl' _. unfold fset2. bcase.
  - intros k m' Hk HI. eapply Hb; eauto. intros m'' H. eapply mst_ext; [|exact H].
    intros k' l' Hk' Hl' _. replace (S k - lo)%nat with (S (k - lo)) by lia. rewrite sum_from_S.
    unfold fset2. rewrite !Nat.eqb_refl. replace (lo + (k - lo))%nat with k by lia. bcase.
Qed.

(** * General matrix-vector product *)
Lemma gemv_ok : forall (m : mem O) A x y a f,
  vext x = ext1 A -> vext y = ext0 A ->
  mat_holds m A a -> vec_holds m x f -> vwritable y -> allocated m (vcells y) ->
  disjoint (mcells A) (vcells y) -> disjoint (vcells x) (vcells y) ->
  succeeds (matrix_vector_product A x y) m (fun _ m' =>
    vec_holds m' y (fun i => bigsum (ext1 A) (fun j => a i j * f j)) /\ changes_only m m' (vcells y)).
Proof.
  intros m A x y a f Hx Hy HA Hf Hw Hal HdA Hdx. pose proof (alloc_vec_holds Hal) as H0.
  eapply wp_conseq.
  { unfold matrix_vector_product.
    apply wp_elems with (m0 := m) (x := y) (x0 := contents_v m y)
       (f := fun i => bigsum (ext1 A) (fun j => a i j * f j)); auto using vst_init; try lia.
    intros i m' g Hi Hst Hg. apply wp_bind. eapply wp_vset; eauto; try lia. intros m1 H1.
    eapply wp_conseq; [apply wp_acc_v with (i := i) (e := fun j => a i j * f j); eauto; try lia|].
    - intros j m2 g' Q Hj Hst2 HQ.
      apply wp_bind. eapply wp_mget with (P := all2); [eapply mat_holds_frame; [exact HA|apply Hst2|exact HdA] | lia | lia | exact I|].
      apply wp_bind. eapply wp_vget; [eapply vec_holds_frame; [exact Hf|apply Hst2|exact Hdx] | lia |].
      eapply wp_vacc_add; eauto; lia.
    - intros [] m2 H2. eapply vst_ext; [|exact H2]. intros k Hk. unfold bigsum, fset.
      rewrite Nat.sub_0_r, Nat.eqb_refl. bcase. }
  intros [] m' H. eapply vst_done; [exact H|]. intros; bcase.
Qed.

Lemma gemv_upd_ok : forall (m : mem O) A x y z a f g,
  vext x = ext1 A -> vext y = ext0 A -> vext z = ext0 A ->
  mat_holds m A a -> vec_holds m x f -> vec_holds m y g -> vwritable z -> allocated m (vcells z) ->
  disjoint (mcells A) (vcells z) -> disjoint (vcells x) (vcells z) -> disjoint_or_aligned_v y z ->
  succeeds (matrix_vector_product_upd A x y z) m (fun _ m' =>
    vec_holds m' z (fun i => sum_from (g i) 0 (ext1 A) (fun j => a i j * f j)) /\ changes_only m m' (vcells z)).
Proof.
  intros m A x y z a f h Hx Hy Hz HA Hf Hh Hw Hal HdA Hdx Hdy. pose proof (alloc_vec_holds Hal) as H0.
  eapply wp_conseq.
  { unfold matrix_vector_product_upd.
    apply wp_elems with (m0 := m) (x := z) (x0 := contents_v m z)
       (f := fun i => sum_from (h i) 0 (ext1 A) (fun j => a i j * f j)); auto using vst_init; try lia.
    intros i m' g Hi Hst Hg. apply wp_bind. apply wp_bind.
    eapply wp_vget_alias with (x := y); eauto; try lia.
    eapply wp_vset; eauto; try lia. intros m1 H1.
    eapply wp_conseq; [apply wp_acc_v with (i := i) (e := fun j => a i j * f j); eauto; try lia|].
    - intros j m2 g' Q Hj Hst2 HQ.
      apply wp_bind. eapply wp_mget with (P := all2); [eapply mat_holds_frame; [exact HA|apply Hst2|exact HdA] | lia | lia | exact I|].
      apply wp_bind. eapply wp_vget; [eapply vec_holds_frame; [exact Hf|apply Hst2|exact Hdx] | lia |].
      eapply wp_vacc_add; eauto; lia.
    - intros [] m2 H2. eapply vst_ext; [|exact H2]. intros k Hk. unfold fset.
      rewrite Nat.sub_0_r, Nat.eqb_refl. bcase. }
  intros [] m' H. eapply vst_done; [exact H|]. intros; bcase.
Qed.

(** * First parts *)
Lemma zero_rows_ok : forall (m : mem O) (A : mat O) y,
  vext y = ext0 A -> vwritable y -> allocated m (vcells y) ->
  succeeds (zero_rows A y) m (fun _ m' => vst m m' y (fun _ => zero)).
Proof.
  intros m A y Hy Hw Hal. pose proof (alloc_vec_holds Hal) as H0. eapply wp_conseq.
  { unfold zero_rows. apply wp_elems with (m0 := m) (x := y) (x0 := contents_v m y) (f := fun _ => zero);
      auto using vst_init; try lia.
    intros; eapply wp_vset; eauto; lia. }
  intros [] m' H. eapply vst_ext; [|exact H]. intros; bcase.
Qed.
Lemma copy_rows_ok : forall (m : mem O) (A : mat O) y z g,
  vext y = ext0 A -> vext z = ext0 A -> vec_holds m y g -> vwritable z -> allocated m (vcells z) ->
  disjoint_or_aligned_v y z ->
  succeeds (copy_rows A y z) m (fun _ m' => vst m m' z g).
Proof.
  intros m A y z g Hy Hz Hg Hw Hal Hd. pose proof (alloc_vec_holds Hal) as H0. eapply wp_conseq.
  { unfold copy_rows. apply wp_elems with (m0 := m) (x := z) (x0 := contents_v m z) (f := g);
      auto using vst_init; try lia.
    intros i m' h Hi Hst Hh. apply wp_bind. eapply wp_vget_alias with (x := y); eauto; try lia.
    eapply wp_vset; eauto; lia. }
  intros [] m' H. eapply vst_ext; [|exact H]. intros; bcase.
Qed.

(** * Symmetric / Hermitian: the loop adds, to every row i, the products of row i of the full
    matrix with x, from left to right. *)
Definition full_of (fd fc : O -> O) (t : triangle) (a : nat -> nat -> O) (i j : nat) : O :=
  if i =? j then fd (a i i) else if in_tri_b t i j then a i j else fc (a j i).

Lemma fset_fset : forall T (f : nat -> T) i v w k, fset (fset f i v) i w k = fset f i w k.
Proof. intros; unfold fset; destruct (k =? i); auto. Qed.

Lemma tri_mv_ok : forall fd fc (m0 m : mem O) A t x y a f y0,
  ext0 A = ext1 A -> vext x = ext1 A -> vext y = ext0 A ->
  mat_holds_on m0 A (in_tri t) a -> vec_holds m0 x f -> vwritable y ->
  disjoint (mcells_on A (in_tri t)) (vcells y) -> disjoint (vcells x) (vcells y) ->
  vst m0 m y y0 ->
  succeeds (tri_mv_loop fd fc A t x y) m (fun _ m' =>
    vst m0 m' y (fun i => sum_from (y0 i) 0 (ext1 A) (fun j => full_of fd fc t a i j * f j))).
Proof.
  intros fd fc m0 m A t x y a f y0 Hsq Hx Hy HA Hf Hw HdA Hdx Hst0.
  set (n := ext1 A) in *.
  assert (forall i j m' g (Q : O -> mem O -> Prop), i < n -> j < n -> in_tri t i j -> vst m0 m' y g ->
            Q (a i j) m' -> succeeds (mget A i j) m' Q) as GA.
  { intros i j m' g Q Hi Hj HP Hst HQ. eapply wp_mget with (P := in_tri t); eauto; try lia.
    eapply mat_holds_frame; [exact HA|apply Hst|exact HdA]. }
  assert (forall i m' g (Q : O -> mem O -> Prop), i < n -> vst m0 m' y g ->
            Q (f i) m' -> succeeds (vget x i) m' Q) as GX.
  { intros i m' g Q Hi Hst HQ. eapply wp_vget; eauto; try lia.
    eapply vec_holds_frame; [exact Hf|apply Hst|exact Hdx]. }
  destruct t; simpl.
  - (* Lower: after k columns, rows < k are finished, row i >= k has received columns < k *)
    apply wp_for_range with (I := fun k m' => vst m0 m' y
      (fun i => sum_from (y0 i) 0 (if i <? k then n else k) (fun j => full_of fd fc Lower a i j * f j))); try lia.
    + eapply vst_ext; [|exact Hst0]. intros; bcase.
    + intros j m1 Hj H1. apply wp_bind. apply wp_bind.
      eapply GA; eauto; simpl; try lia. apply wp_bind. eapply GX; eauto; try lia.
      eapply wp_vacc_add; eauto; try lia. intros m2 H2.
      apply wp_for_range with (I := fun k m' => vst m0 m' y
        (fun i => sum_from (y0 i) 0 (if i <? j then n else if i =? j then k else if i <? k then S j else j)
                    (fun j => full_of fd fc Lower a i j * f j))); try (fold n; lia).
      * eapply vst_ext; [|exact H2]. intros i Hi. unfold fset. cbv beta.
        destruct (Nat.eqb_spec i j) as [->|Hne].
        { rewrite Nat.ltb_irrefl. rewrite Nat.add_1_r, sum_from_S. simpl. f_equal.
          unfold full_of. rewrite Nat.eqb_refl; auto. }
        bcase.
      * intros i m3 Hi H3. apply wp_bind. eapply GA; eauto; simpl; try lia.
        apply wp_bind. apply wp_bind. eapply GX; eauto; try lia.
        eapply wp_vacc_add; eauto; try lia. intros m4 H4.
        apply wp_bind. eapply GX; eauto; try lia.
        eapply wp_vacc_add; eauto; try lia. intros m5 H5.
        eapply vst_ext; [|exact H5]. intros k Hk. unfold fset. cbv beta.
        destruct (Nat.eqb_spec k j) as [->|Hkj].
        { bdec. rewrite sum_from_S. simpl. f_equal. unfold full_of. simpl. bcase. }
        destruct (Nat.eqb_spec k i) as [->|Hki].
        { bdec. rewrite sum_from_S. simpl. f_equal.
          unfold full_of. simpl. bcase. }
        bcase.
      * intros m3 H3. eapply vst_ext; [|exact H3]. intros i Hi. fold n in H3. bcase.
        all: f_equal; lia.
    + intros m1 H1. eapply vst_ext; [|exact H1]. intros i Hi. bcase.
  - (* Upper: after k columns, row i < k has received columns 0..k-1, rows >= k nothing *)
    apply wp_for_range with (I := fun k m' => vst m0 m' y
      (fun i => sum_from (y0 i) 0 (if i <? k then k else 0) (fun j => full_of fd fc Upper a i j * f j))); try lia.
    + eapply vst_ext; [|exact Hst0]. intros; bcase.
    + intros j m1 Hj H1. apply wp_bind.
      apply wp_for_range with (I := fun k m' => vst m0 m' y
        (fun i => sum_from (y0 i) 0 (if i =? j then k else if i <? k then S j else if i <? j then j else 0)
                    (fun j => full_of fd fc Upper a i j * f j))); try lia.
      * eapply vst_ext; [|exact H1]. intros i Hi. bcase.
      * intros i m3 Hi H3. apply wp_bind. eapply GA; eauto; simpl; try lia.
        apply wp_bind. apply wp_bind. eapply GX; eauto; try lia.
        eapply wp_vacc_add; eauto; try lia. intros m4 H4.
        apply wp_bind. eapply GX; eauto; try lia.
        eapply wp_vacc_add; eauto; try lia. intros m5 H5.
        eapply vst_ext; [|exact H5]. intros k Hk. unfold fset. cbv beta.
        destruct (Nat.eqb_spec k j) as [->|Hkj].
        { bdec. rewrite sum_from_S. simpl. f_equal. unfold full_of. simpl. bcase. }
        destruct (Nat.eqb_spec k i) as [->|Hki].
        { bdec. rewrite sum_from_S. simpl. f_equal.
          unfold full_of. simpl. bcase. }
        bcase.
      * intros m3 H3. apply wp_bind.
        eapply GA; eauto; simpl; try lia. apply wp_bind. eapply GX; eauto; try lia.
        eapply wp_vacc_add; eauto; try lia. intros m2 H2.
        eapply vst_ext; [|exact H2]. intros i Hi. unfold fset. cbv beta.
        destruct (Nat.eqb_spec i j) as [->|Hne].
        { bdec. rewrite sum_from_S. simpl.
          f_equal. unfold full_of. rewrite Nat.eqb_refl; auto. }
        bcase.
    + intros m1 H1. eapply vst_ext; [|exact H1]. intros i Hi. bcase.
Qed.

Lemma full_of_sym : forall t a i j, full_of (fun v => v) (fun v => v) t a i j = sym_of t a i j.
Proof. intros t a i j; unfold full_of, sym_of. destruct (Nat.eqb_spec i j) as [->|]; auto.
  destruct (in_tri_b t j j); auto. Qed.
Lemma full_of_herm : forall t a i j, full_of re conj t a i j = herm_of t a i j.
Proof. reflexivity. Qed.

Ltac tri_setup Hdis :=
  match goal with |- disjoint _ _ => intros ? ? ?; eapply Hdis; eauto end.

Lemma symv_ok : forall (m : mem O) A t x y a f,
  ext0 A = ext1 A -> vext x = ext1 A -> vext y = ext0 A ->
  mat_holds_on m A (in_tri t) a -> vec_holds m x f -> vwritable y -> allocated m (vcells y) ->
  disjoint (mcells_on A (in_tri t)) (vcells y) -> disjoint (vcells x) (vcells y) ->
  succeeds (symmetric_matrix_vector_product A t x y) m (fun _ m' =>
    vec_holds m' y (fun i => bigsum (ext1 A) (fun j => sym_of t a i j * f j)) /\ changes_only m m' (vcells y)).
Proof.
  intros m A t x y a f Hsq Hx Hy HA Hf Hw Hal HdA Hdx.
  apply wp_bind. eapply wp_conseq; [apply zero_rows_ok; auto|]. intros [] m1 H1.
  eapply wp_conseq; [eapply tri_mv_ok; eauto|].
  intros [] m2 H2. eapply vst_done; [exact H2|]. intros i Hi. apply sum_from_ext.
  intros; rewrite full_of_sym; auto.
Qed.
Lemma symv_upd_ok : forall (m : mem O) A t x y z a f g,
  ext0 A = ext1 A -> vext x = ext1 A -> vext y = ext0 A -> vext z = ext0 A ->
  mat_holds_on m A (in_tri t) a -> vec_holds m x f -> vec_holds m y g -> vwritable z -> allocated m (vcells z) ->
  disjoint (mcells_on A (in_tri t)) (vcells z) -> disjoint (vcells x) (vcells z) -> disjoint_or_aligned_v y z ->
  succeeds (symmetric_matrix_vector_product_upd A t x y z) m (fun _ m' =>
    vec_holds m' z (fun i => sum_from (g i) 0 (ext1 A) (fun j => sym_of t a i j * f j)) /\ changes_only m m' (vcells z)).
Proof.
  intros m A t x y z a f g Hsq Hx Hy Hz HA Hf Hg Hw Hal HdA Hdx Hdy.
  apply wp_bind. eapply wp_conseq; [eapply copy_rows_ok; eauto|]. intros [] m1 H1.
  eapply wp_conseq; [eapply tri_mv_ok; eauto|].
  intros [] m2 H2. eapply vst_done; [exact H2|]. intros i Hi. apply sum_from_ext.
  intros; rewrite full_of_sym; auto.
Qed.
Lemma hemv_ok : forall (m : mem O) A t x y a f,
  ext0 A = ext1 A -> vext x = ext1 A -> vext y = ext0 A ->
  mat_holds_on m A (in_tri t) a -> vec_holds m x f -> vwritable y -> allocated m (vcells y) ->
  disjoint (mcells_on A (in_tri t)) (vcells y) -> disjoint (vcells x) (vcells y) ->
  succeeds (hermitian_matrix_vector_product A t x y) m (fun _ m' =>
    vec_holds m' y (fun i => bigsum (ext1 A) (fun j => herm_of t a i j * f j)) /\ changes_only m m' (vcells y)).
Proof.
  intros m A t x y a f Hsq Hx Hy HA Hf Hw Hal HdA Hdx.
  apply wp_bind. eapply wp_conseq; [apply zero_rows_ok; auto|]. intros [] m1 H1.
  eapply wp_conseq; [eapply tri_mv_ok; eauto|].
  intros [] m2 H2. eapply vst_done; [exact H2|]. auto.
Qed.
Lemma hemv_upd_ok : forall (m : mem O) A t x y z a f g,
  ext0 A = ext1 A -> vext x = ext1 A -> vext y = ext0 A -> vext z = ext0 A ->
  mat_holds_on m A (in_tri t) a -> vec_holds m x f -> vec_holds m y g -> vwritable z -> allocated m (vcells z) ->
  disjoint (mcells_on A (in_tri t)) (vcells z) -> disjoint (vcells x) (vcells z) -> disjoint_or_aligned_v y z ->
  succeeds (hermitian_matrix_vector_product_upd A t x y z) m (fun _ m' =>
    vec_holds m' z (fun i => sum_from (g i) 0 (ext1 A) (fun j => herm_of t a i j * f j)) /\ changes_only m m' (vcells z)).
Proof.
  intros m A t x y z a f g Hsq Hx Hy Hz HA Hf Hg Hw Hal HdA Hdx Hdy.
  apply wp_bind. eapply wp_conseq; [eapply copy_rows_ok; eauto|]. intros [] m1 H1.
  eapply wp_conseq; [eapply tri_mv_ok; eauto|].
  intros [] m2 H2. eapply vst_done; [exact H2|]. auto.
Qed.
End Pf.

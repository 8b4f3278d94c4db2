(** Calls with the same meaning end in the same memory, in any arithmetic. *)
From Coq Require Import List Arith ZArith Lia Bool.
From Verif Require Import Mem Scalar View Spec SpecSub SpecAgree Wp Loops Sums Idx PfView Blas1 PfBlas1 Blas2 PfBlas2 PfTrsv PfRank
  Blas3 PfBlas3 PfTrsm PfBlas3b PfKK PfSub PfTrmv.
Import ListNotations.
Set Implicit Arguments.
Local Open Scope sc_scope.

Section Pf.
Context {O : ops}.

Lemma agree_v : forall p q (m : mem O) z g, vacc z = ADefault ->
  succeeds p m (fun _ m' => vec_holds m' z g /\ changes_only m m' (vcells z)) ->
  succeeds q m (fun _ m' => vec_holds m' z g /\ changes_only m m' (vcells z)) -> agree p q m.
Proof.
  intros p q m z g Hd ([] & m1 & R1 & H1) ([] & m2 & R2 & H2). exists m1, m2. split; auto. split; auto.
  eapply vst_same; eauto.
Qed.
Lemma agree_m : forall p q (m : mem O) C (P : nat -> nat -> Prop) g, (forall i j, P i j \/ ~ P i j) -> macc C = ADefault ->
  succeeds p m (fun _ m' => mat_holds_on m' C P g /\ changes_only m m' (mcells_on C P)) ->
  succeeds q m (fun _ m' => mat_holds_on m' C P g /\ changes_only m m' (mcells_on C P)) -> agree p q m.
Proof.
  intros p q m C P g HP Hd ([] & m1 & R1 & H1) ([] & m2 & R2 & H2). exists m1, m2. split; auto. split; auto.
  eapply mst_same; eauto.
Qed.

(** * Inner products *)
Lemma dot_swap : forall (m : mem O) x y f g init, mul_commutes O -> vext x = vext y -> vec_holds m x f -> vec_holds m y g ->
  exists r, run (dot x y init) m = Ok r m /\ run (dot y x init) m = Ok r m.
Proof.
  intros m x y f g init Hc He Hx Hy.
  destruct (@dot_ok _ m x y f g init He Hx Hy) as (r & m1 & R1 & -> & ->).
  destruct (@dot_ok _ m y x g f init (eq_sym He) Hy Hx) as (r & m2 & R2 & -> & ->).
  eexists. split; [exact R1|]. rewrite R2, <- He. f_equal. apply sum_from_ext. intros; apply Hc.
Qed.

Lemma gemv_rows : forall (m : mem O) A x y a f,
  vext x = ext1 A -> vext y = ext0 A ->
  mat_holds m A a -> vec_holds m x f -> vwritable y -> allocated m (vcells y) ->
  disjoint (mcells A) (vcells y) -> disjoint (vcells x) (vcells y) ->
  agree (matrix_vector_product A x y)
    (for_range 0 (ext0 A) (fun i => bind (dot (row A i) x zero) (fun r => vset y i r))) m.
Proof.
  intros m A x y a f Hx Hy HA Hf Hw Hal Hd1 Hd2.
  eapply agree_v with (z := y); [apply Hw|apply gemv_ok; eauto|].
  pose proof (alloc_vec_holds Hal) as H0.
  apply wp_for_range with (I := fun k m' => vst m m' y (fun i => if i <? k then bigsum (ext1 A) (fun j => a i j * f j) else contents_v m y i)); [lia| | |].
  - split; [|apply changes_only_refl]. exact H0.
  - intros i m1 Hi [K1 K2]. apply wp_bind.
    assert (mat_holds m1 A a) as HA1 by (eapply mat_holds_frame; eauto).
    assert (vec_holds m1 x f) as Hf1 by (eapply vec_holds_frame; eauto).
    eapply wp_conseq; [apply dot_ok with (f := fun j => a i j) (g := f); auto; apply row_holds; auto; lia|].
    intros r m' [-> ->]. eapply wp_vset; [exact Hw|split; [exact K1|exact K2]|lia|].
    intros m2 [K3 K4]. split; auto. eapply vec_holds_ext; [|exact K3]. intros k Hk. unfold fset.
    destruct (Nat.eqb_spec k i) as [->|]; [destruct (Nat.ltb_spec i (S i)); [reflexivity|lia]|].
    destruct (Nat.ltb_spec k i), (Nat.ltb_spec k (S i)); auto; lia.
  - intros m' [K1 K2]. split; auto. eapply vec_holds_ext; [|exact K1]. intros i Hi. cbv beta. rewrite Hy in Hi.
    apply Nat.ltb_lt in Hi. rewrite Hi. reflexivity.
Qed.

Lemma gemv_upd_rows : forall (m : mem O) A x z a f g,
  vext x = ext1 A -> vext z = ext0 A ->
  mat_holds m A a -> vec_holds m x f -> vec_holds m z g -> vwritable z ->
  disjoint (mcells A) (vcells z) -> disjoint (vcells x) (vcells z) ->
  agree (matrix_vector_product_upd A x z z)
    (for_range 0 (ext0 A) (fun i => bind (vget z i) (fun v => bind (dot (row A i) x v) (fun r => vset z i r)))) m.
Proof.
  intros m A x z a f g Hx Hz HA Hf Hg Hw Hd1 Hd2.
  eapply agree_v with (z := z); [apply Hw|apply gemv_upd_ok with (g := g); eauto; [eapply vec_holds_alloc; eauto|right; intros ? ?; auto]|].
  apply wp_for_range with (I := fun k m' => vst m m' z (fun i => if i <? k then sum_from (g i) 0 (ext1 A) (fun j => a i j * f j) else g i)); [lia| | |].
  - split; [|apply changes_only_refl]. exact Hg.
  - intros i m1 Hi [K1 K2]. apply wp_bind.
    assert (mat_holds m1 A a) as HA1 by (eapply mat_holds_frame; eauto).
    assert (vec_holds m1 x f) as Hf1 by (eapply vec_holds_frame; eauto).
    eapply wp_vget; [exact K1|lia|]. cbv beta. rewrite Nat.ltb_irrefl. apply wp_bind.
    eapply wp_conseq; [apply dot_ok with (f := fun j => a i j) (g := f); auto; apply row_holds; auto; lia|].
    intros r m' [-> ->]. eapply wp_vset; [exact Hw|split; [exact K1|exact K2]|lia|].
    intros m2 [K3 K4]. split; auto. eapply vec_holds_ext; [|exact K3]. intros k Hk. unfold fset.
    destruct (Nat.eqb_spec k i) as [->|]; [destruct (Nat.ltb_spec i (S i)); [reflexivity|lia]|].
    destruct (Nat.ltb_spec k i), (Nat.ltb_spec k (S i)); auto; lia.
  - intros m' [K1 K2]. split; auto. eapply vec_holds_ext; [|exact K1]. intros i Hi. cbv beta. rewrite Hz in Hi.
    apply Nat.ltb_lt in Hi. rewrite Hi. reflexivity.
Qed.

(** Updating = copying and then updating in place. *)
Lemma copy_then_v : forall (m : mem O) y z g p q h, vext y = vext z -> vec_holds m y g -> vwritable z ->
  allocated m (vcells z) -> disjoint_or_aligned_v y z ->
  succeeds p m (fun _ m' => vec_holds m' z h /\ changes_only m m' (vcells z)) ->
  (forall m1, changes_only m m1 (vcells z) -> vec_holds m1 z g ->
     succeeds q m1 (fun _ m' => vec_holds m' z h /\ changes_only m1 m' (vcells z))) ->
  agree p (bind (copy_1 y z) (fun _ => q)) m.
Proof.
  intros m y z g p q h He Hg Hw Hal Hd Hp Hq. eapply agree_v with (z := z); [apply Hw|exact Hp|].
  apply wp_bind. eapply wp_conseq; [eapply copy_1_ok with (f := g); eauto|]. intros [] m1 [K1 K2].
  eapply wp_conseq; [apply Hq; auto|]. intros [] m2 [K3 K4]. split; auto. eapply changes_only_trans; eauto.
Qed.
Lemma copy_then_m : forall (m : mem O) E C e p q h, ext0 E = ext0 C -> ext1 E = ext1 C -> mat_holds m E e -> mwritable C ->
  allocated m (mcells C) -> disjoint_or_aligned_m E C ->
  succeeds p m (fun _ m' => mat_holds m' C h /\ changes_only m m' (mcells C)) ->
  (forall m1, changes_only m m1 (mcells C) -> mat_holds m1 C e ->
     succeeds q m1 (fun _ m' => mat_holds m' C h /\ changes_only m1 m' (mcells C))) ->
  agree p (bind (copy_2 E C) (fun _ => q)) m.
Proof.
  intros m E C e p q h He0 He1 HE Hw Hal Hd Hp Hq. eapply agree_m with (C := C) (P := all2); [apply all2_dec|apply Hw|exact Hp|].
  apply wp_bind. eapply wp_conseq; [eapply copy_2_ok with (f := e); eauto|]. intros [] m1 [K1 K2].
  eapply wp_conseq; [apply Hq; auto|]. intros [] m2 [K3 K4]. split; auto. eapply changes_only_trans; eauto.
Qed.
Lemma gemv_upd_copy : forall (m : mem O) A x y z a f g,
  vext x = ext1 A -> vext y = ext0 A -> vext z = ext0 A ->
  mat_holds m A a -> vec_holds m x f -> vec_holds m y g -> vwritable z -> allocated m (vcells z) ->
  disjoint (mcells A) (vcells z) -> disjoint (vcells x) (vcells z) -> disjoint_or_aligned_v y z ->
  agree (matrix_vector_product_upd A x y z) (bind (copy_1 y z) (fun _ => matrix_vector_product_upd A x z z)) m.
Proof.
  intros m A x y z a f g Hx Hy Hz HA Hf Hg Hw Hal Hd1 Hd2 Hd3.
  eapply copy_then_v with (g := g); eauto; [congruence|eapply gemv_upd_ok; eauto|].
  intros m1 K1 K2. apply gemv_upd_ok with (g := g); auto.
  - eapply mat_holds_frame; eauto.
  - eapply vec_holds_frame; eauto.
  - eapply vec_holds_alloc; eauto.
  - right. intros ? ?; auto.
Qed.
Lemma symv_upd_copy : forall (m : mem O) A t x y z a f g,
  ext0 A = ext1 A -> vext x = ext1 A -> vext y = ext0 A -> vext z = ext0 A ->
  mat_holds_on m A (in_tri t) a -> vec_holds m x f -> vec_holds m y g -> vwritable z -> allocated m (vcells z) ->
  disjoint (mcells_on A (in_tri t)) (vcells z) -> disjoint (vcells x) (vcells z) -> disjoint_or_aligned_v y z ->
  agree (symmetric_matrix_vector_product_upd A t x y z) (bind (copy_1 y z) (fun _ => symmetric_matrix_vector_product_upd A t x z z)) m /\
  agree (hermitian_matrix_vector_product_upd A t x y z) (bind (copy_1 y z) (fun _ => hermitian_matrix_vector_product_upd A t x z z)) m.
Proof.
  intros m A t x y z a f g Hsq Hx Hy Hz HA Hf Hg Hw Hal Hd1 Hd2 Hd3.
  split; (eapply copy_then_v with (g := g); eauto; [congruence|first [eapply symv_upd_ok; eauto; fail|eapply hemv_upd_ok; eauto]|]);
  (intros m1 K1 K2; (first [apply symv_upd_ok with (g := g) | apply hemv_upd_ok with (g := g)]; auto;
   [eapply mat_holds_frame; eauto|eapply vec_holds_frame; eauto|eapply vec_holds_alloc; eauto|right; intros ? ?; auto])).
Qed.
Lemma trmv_upd_copy : forall (m : mem O) A t d x y z a f g,
  ext0 A = ext1 A -> vext x = ext1 A -> vext y = ext0 A -> vext z = ext0 A ->
  mat_holds_on m A (stored t d) a -> vec_holds m x f -> vec_holds m y g -> vwritable z -> allocated m (vcells z) ->
  disjoint (mcells_on A (stored t d)) (vcells z) -> disjoint (vcells x) (vcells z) -> disjoint_or_aligned_v y z ->
  agree (triangular_matrix_vector_product_upd A t d x y z)
    (bind (copy_1 y z) (fun _ => triangular_matrix_vector_product_upd A t d x z z)) m.
Proof.
  intros m A t d x y z a f g Hsq Hx Hy Hz HA Hf Hg Hw Hal Hd1 Hd2 Hd3.
  eapply copy_then_v with (g := g); eauto; [congruence|eapply trmv_upd_ok; eauto|].
  intros m1 K1 K2. apply trmv_upd_ok with (g := g); auto;
   [eapply mat_holds_frame; eauto|eapply vec_holds_frame; eauto|eapply vec_holds_alloc; eauto|right; intros ? ?; auto].
Qed.
Lemma gemm_upd_copy : forall (m : mem O) A B E C a b e,
  ext0 C = ext0 A -> ext1 A = ext0 B -> ext1 C = ext1 B -> ext0 E = ext0 C -> ext1 E = ext1 C ->
  mat_holds m A a -> mat_holds m B b -> mat_holds m E e -> mwritable C -> allocated m (mcells C) ->
  disjoint (mcells A) (mcells C) -> disjoint (mcells B) (mcells C) -> disjoint_or_aligned_m E C ->
  agree (matrix_product_upd A B E C) (bind (copy_2 E C) (fun _ => matrix_product_upd A B C C)) m.
Proof.
  intros m A B E C a b e H1 H2 H3 H4 H5 HA HB HE Hw Hal Hd1 Hd2 Hd3.
  eapply copy_then_m with (e := e); eauto; [eapply gemm_upd_ok; eauto|].
  intros m1 K1 K2. apply gemm_upd_ok with (e := e); auto;
   [eapply mat_holds_frame; eauto|eapply mat_holds_frame; eauto|eapply mat_holds_alloc; eauto|right; intros ? ? ? ?; auto].
Qed.

(** * Columns and rows of a product *)
Lemma columns_agree : forall (m : mem O) (C : mat O) g p body, mwritable C -> allocated m (mcells C) ->
  succeeds p m (fun _ m' => mat_holds m' C g /\ changes_only m m' (mcells C)) ->
  (forall j m', j < ext1 C -> changes_only m m' (mcells C) -> allocated m' (vcells (col C j)) ->
     succeeds (body j) m' (fun _ m'' => vec_holds m'' (col C j) (fun i => g i j) /\ changes_only m' m'' (vcells (col C j)))) ->
  agree p (for_range 0 (ext1 C) body) m.
Proof.
  intros m C g p body Hw Hal Hp Hb. eapply agree_m with (C := C) (P := all2); [apply all2_dec|apply Hw|exact Hp|].
  eapply wp_conseq; [eapply wp_columns with (c := contents_m m C) (R := fun j f => forall i, i < ext0 C -> f i = g i j); auto|].
  - apply alloc_mat_holds; auto.
  - intros j f h E H i Hi. rewrite <- E; auto.
  - intros j m1 Hj K1 K2. eapply wp_conseq; [apply Hb; auto; eapply vec_holds_alloc; eauto|].
    intros [] m2 [K3 K4]. split; auto. exists (fun i => g i j). split; auto.
  - intros [] m1 [(f & K1 & K2) K3]. split; auto. eapply mat_holds_on_ext; [|exact K1]. intros i j Hi Hj _. apply K2; auto.
Qed.
Lemma rows_agree : forall (m : mem O) (C : mat O) g p body, mwritable C -> allocated m (mcells C) ->
  succeeds p m (fun _ m' => mat_holds m' C g /\ changes_only m m' (mcells C)) ->
  (forall i m', i < ext0 C -> changes_only m m' (mcells C) -> allocated m' (vcells (row C i)) ->
     succeeds (body i) m' (fun _ m'' => vec_holds m'' (row C i) (fun j => g i j) /\ changes_only m' m'' (vcells (row C i)))) ->
  agree p (for_range 0 (ext0 C) body) m.
Proof.
  intros m C g p body Hw Hal Hp Hb. eapply agree_m with (C := C) (P := all2); [apply all2_dec|apply Hw|exact Hp|].
  eapply wp_conseq; [eapply wp_rowwise with (c := contents_m m C) (R := fun i f => forall j, j < ext1 C -> f j = g i j); auto|].
  - apply alloc_mat_holds; auto.
  - intros j f h E H i Hi. rewrite <- E; auto.
  - intros j m1 Hj K1 K2. eapply wp_conseq; [apply Hb; auto; eapply vec_holds_alloc; eauto|].
    intros [] m2 [K3 K4]. split; auto. exists (fun i => g j i). split; auto.
  - intros [] m1 [(f & K1 & K2) K3]. split; auto. eapply mat_holds_on_ext; [|exact K1]. intros i j Hi Hj _. apply K2; auto.
Qed.
Lemma col_disjoint : forall S (C : mat O) j, disjoint S (mcells C) -> j < ext1 C -> disjoint S (vcells (col C j)).
Proof. intros S C j H Hj c K1 K2. apply (H c); auto. eapply col_cells; [|exact K2]; auto. Qed.
Lemma row_disjoint : forall S (C : mat O) i, disjoint S (mcells C) -> i < ext0 C -> disjoint S (vcells (row C i)).
Proof. intros S C i H Hi c K1 K2. apply (H c); auto. eapply row_cells; [|exact K2]; auto. Qed.
Lemma disjoint_col : forall S (B : mat O) j, disjoint (mcells B) S -> j < ext1 B -> disjoint (vcells (col B j)) S.
Proof. intros S C j H Hj c K1 K2. apply (H c); auto. eapply col_cells; [|exact K1]; auto. Qed.
Lemma disjoint_row : forall S (B : mat O) i, disjoint (mcells B) S -> i < ext0 B -> disjoint (vcells (row B i)) S.
Proof. intros S C j H Hj c K1 K2. apply (H c); auto. eapply row_cells; [|exact K1]; auto. Qed.

Lemma gemm_columns : forall (m : mem O) A B C a b,
  ext0 C = ext0 A -> ext1 A = ext0 B -> ext1 C = ext1 B ->
  mat_holds m A a -> mat_holds m B b -> mwritable C -> allocated m (mcells C) ->
  disjoint (mcells A) (mcells C) -> disjoint (mcells B) (mcells C) ->
  agree (matrix_product A B C) (for_range 0 (ext1 C) (fun j => matrix_vector_product A (col B j) (col C j))) m.
Proof.
  intros m A B C a b H1 H2 H3 HA HB Hw Hal Hd1 Hd2. eapply columns_agree; eauto; [eapply gemm_ok; eauto|].
  intros j m1 Hj K1 K2.
  assert (mat_holds m1 A a) as HA1 by (eapply mat_holds_frame; eauto).
  assert (mat_holds m1 B b) as HB1 by (eapply mat_holds_frame; eauto).
  apply gemv_ok with (a := a) (f := fun k => b k j); auto; try (simpl; congruence).
  - apply col_holds; auto; lia.
  - apply col_writable; auto.
  - apply col_disjoint; auto.
  - apply disjoint_col; [apply col_disjoint; auto|lia].
Qed.
Lemma symm_columns : forall (m : mem O) A t B C a b,
  ext0 A = ext1 A -> ext0 C = ext0 A -> ext1 A = ext0 B -> ext1 C = ext1 B ->
  mat_holds_on m A (in_tri t) a -> mat_holds m B b -> mwritable C -> allocated m (mcells C) ->
  disjoint (mcells_on A (in_tri t)) (mcells C) -> disjoint (mcells B) (mcells C) ->
  agree (symmetric_matrix_product_left A t B C)
    (for_range 0 (ext1 C) (fun j => symmetric_matrix_vector_product A t (col B j) (col C j))) m /\
  agree (hermitian_matrix_product_left A t B C)
    (for_range 0 (ext1 C) (fun j => hermitian_matrix_vector_product A t (col B j) (col C j))) m.
Proof.
  intros m A t B C a b Hsq H1 H2 H3 HA HB Hw Hal Hd1 Hd2.
  split; (eapply columns_agree; eauto; [first [eapply symm_left_ok; eauto; fail|eapply hemm_left_ok; eauto]|]);
  (intros j m1 Hj K1 K2;
  assert (mat_holds_on m1 A (in_tri t) a) as HA1 by (eapply mat_holds_frame; eauto);
  assert (mat_holds m1 B b) as HB1 by (eapply mat_holds_frame; eauto);
  (first [apply symv_ok with (a := a) (f := fun k => b k j) | apply hemv_ok with (a := a) (f := fun k => b k j)]);
  auto; try (simpl; congruence);
  [apply col_holds; auto; lia|apply col_writable; auto|apply col_disjoint; auto|apply disjoint_col; [apply col_disjoint; auto|lia]]).
Qed.
(** Overwriting triangular product: the same columns when the unit diagonal comes last in both. *)
Lemma tri_elem_row : forall t d n a (f : nat -> O) i, i < n -> (d = ImplicitUnit -> t = Lower) ->
  tri_elem (is_lower t) d n i (fun k => a i k * f k) (f i) = tri_row zero t d n a f i.
Proof.
  intros t d n a f i Hi Hd. unfold tri_elem, tri_row. destruct t, d; simpl is_lower; cbv iota; simpl is_explicit; cbv iota.
  - rewrite Nat.sub_0_r. apply sum_from_ext. intros k Hk. unfold tri_term. destruct (Nat.eqb_spec i k) as [->|]; auto.
  - rewrite Nat.sub_0_r, Nat.add_1_r, sum_from_S. f_equal.
    + apply sum_from_ext. intros k Hk. unfold tri_term. destruct (Nat.eqb_spec i k) as [->|]; auto; lia.
    + unfold tri_term. simpl. rewrite Nat.eqb_refl. auto.
  - apply sum_from_ext. intros k Hk. unfold tri_term. destruct (Nat.eqb_spec i k) as [->|]; auto.
  - discriminate (Hd eq_refl).
Qed.
Lemma trmm_columns : forall ty (m : mem O) A t d B C a b,
  fits ty (ext0 C) -> (d = ImplicitUnit -> t = Lower) ->
  ext0 A = ext1 A -> ext0 C = ext0 A -> ext1 A = ext0 B -> ext1 C = ext1 B ->
  mat_holds_on m A (stored t d) a -> mat_holds m B b -> mwritable C -> allocated m (mcells C) ->
  disjoint (mcells_on A (stored t d)) (mcells C) -> disjoint (mcells B) (mcells C) ->
  agree (triangular_matrix_product_left ty A t d B C)
    (for_range 0 (ext1 C) (fun j => triangular_matrix_vector_product A t d (col B j) (col C j))) m.
Proof.
  intros ty m A t d B C a b Hf Hd Hsq H1 H2 H3 HA HB Hw Hal Hd1 Hd2.
  eapply columns_agree with (g := fun i j => tri_row zero t d (ext1 A) a (fun k => b k j) i); eauto.
  - eapply wp_conseq; [eapply trmm_left_raw; eauto|]. intros [] m' [K1 K2]. split; auto.
    eapply mat_holds_on_ext; [|exact K1]. intros i j Hi Hj _. cbv beta. apply (@tri_elem_row t d (ext1 A) a (fun k => b k j) i); auto. lia.
  - intros j m1 Hj K1 K2.
    assert (mat_holds_on m1 A (stored t d) a) as HA1 by (eapply mat_holds_frame; eauto).
    assert (mat_holds m1 B b) as HB1 by (eapply mat_holds_frame; eauto).
    apply trmv_ok with (a := a) (f := fun k => b k j); auto; try (simpl; congruence);
    [apply col_holds; auto; lia|apply col_writable; auto|apply col_disjoint; auto|apply disjoint_col; [apply col_disjoint; auto|lia]].
Qed.

(** * Products as sums of outer products *)
Lemma outer_agree : forall (m : mem O) (C : mat O) (P : nat -> nat -> Prop) c (e : nat -> nat -> nat -> O) n p body,
  (forall i j, P i j \/ ~ P i j) -> macc C = ADefault -> mat_holds_on m C P c ->
  succeeds p m (fun _ m' => mat_holds_on m' C P (fun i j => sum_from (c i j) 0 n (e i j)) /\ changes_only m m' (mcells_on C P)) ->
  (forall k m' g, k < n -> changes_only m m' (mcells_on C P) -> mat_holds_on m' C P g ->
     succeeds (body k) m' (fun _ m'' => mat_holds_on m'' C P (fun i j => g i j + e i j k) /\ changes_only m' m'' (mcells_on C P))) ->
  agree p (for_range 0 n body) m.
Proof.
  intros m C P c e n p body HP Hd HC Hp Hb. eapply agree_m with (C := C) (P := P); [exact HP|exact Hd|exact Hp|].
  apply wp_for_range with (I := fun k m' => mst m m' C P (fun i j => sum_from (c i j) 0 k (e i j))); [lia| | |].
  - split; [exact HC|apply changes_only_refl].
  - intros k m1 Hk [K1 K2]. eapply wp_conseq; [eapply Hb; eauto; lia|]. intros [] m2 [K3 K4]. split.
    + eapply mat_holds_on_ext; [|exact K3]. intros i j _ _ _. cbv beta. rewrite sum_from_S. auto.
    + eapply changes_only_trans; eauto.
  - intros m1 [K1 K2]. split; auto.
Qed.
Lemma gemm_outer : forall (m : mem O) A B C a b c,
  ext0 C = ext0 A -> ext1 A = ext0 B -> ext1 C = ext1 B ->
  mat_holds m A a -> mat_holds m B b -> mat_holds m C c -> mwritable C ->
  disjoint (mcells A) (mcells C) -> disjoint (mcells B) (mcells C) ->
  agree (matrix_product_upd A B C C) (for_range 0 (ext1 A) (fun k => matrix_rank_1_update (col A k) (row B k) C)) m.
Proof.
  intros m A B C a b c H1 H2 H3 HA HB HC Hw Hd1 Hd2.
  eapply outer_agree with (C := C) (P := all2) (c := c); [apply all2_dec|apply Hw|exact HC|apply gemm_upd_ok; eauto|].
  - eapply mat_holds_alloc; eauto.
  - right. intros ? ? ? ?; auto.
  - intros k m1 g Hk K1 K2.
    assert (mat_holds m1 A a) as HA1 by (eapply mat_holds_frame; eauto).
    assert (mat_holds m1 B b) as HB1 by (eapply mat_holds_frame; eauto).
    apply ger_ok with (f := fun i => a i k) (g := fun j => b k j); auto; try (simpl; congruence).
    + apply col_holds; auto.
    + apply row_holds; auto; lia.
    + apply disjoint_col; auto.
    + apply disjoint_row; auto; lia.
Qed.
Lemma syrk_outer : forall (m : mem O) A C t a c,
  ext0 C = ext1 C -> ext0 A = ext0 C ->
  mat_holds m A a -> mat_holds_on m C (in_tri t) c -> mwritable_on C (in_tri t) ->
  disjoint (mcells A) (mcells_on C (in_tri t)) ->
  agree (symmetric_matrix_rank_k_update A C t) (for_range 0 (ext1 A) (fun k => symmetric_matrix_rank_1_update (col A k) C t)) m.
Proof.
  intros m A C t a c Hsq H1 HA HC Hw Hd.
  eapply outer_agree with (C := C) (P := in_tri t) (c := c); [apply in_tri_dec|apply Hw|exact HC|apply syrk_ok; eauto|].
  intros k m1 g Hk K1 K2.
  assert (mat_holds m1 A a) as HA1 by (eapply mat_holds_frame; eauto).
  apply syr_ok with (f := fun i => a i k); auto; [apply col_holds; auto|apply disjoint_col; auto].
Qed.
Lemma syrk_alpha_outer : forall (m : mem O) alpha A C t a c,
  ext0 C = ext1 C -> ext0 A = ext0 C ->
  mat_holds m A a -> mat_holds_on m C (in_tri t) c -> mwritable_on C (in_tri t) ->
  disjoint (mcells A) (mcells_on C (in_tri t)) ->
  agree (symmetric_matrix_rank_k_update_alpha alpha A C t)
    (for_range 0 (ext1 A) (fun k => symmetric_matrix_rank_1_update_alpha alpha (col A k) C t)) m.
Proof.
  intros m alpha A C t a c Hsq H1 HA HC Hw Hd.
  eapply outer_agree with (C := C) (P := in_tri t) (c := c); [apply in_tri_dec|apply Hw|exact HC|apply syrk_alpha_ok; eauto|].
  intros k m1 g Hk K1 K2.
  assert (mat_holds m1 A a) as HA1 by (eapply mat_holds_frame; eauto).
  apply syr_alpha_ok with (f := fun i => a i k); auto; [apply col_holds; auto|apply disjoint_col; auto].
Qed.
Lemma syr2k_outer : forall (m : mem O) A B C t a b c,
  ext0 C = ext1 C -> ext0 A = ext0 C -> ext0 B = ext0 C -> ext1 B = ext1 A ->
  mat_holds m A a -> mat_holds m B b -> mat_holds_on m C (in_tri t) c -> mwritable_on C (in_tri t) ->
  disjoint (mcells A) (mcells_on C (in_tri t)) -> disjoint (mcells B) (mcells_on C (in_tri t)) ->
  agree (symmetric_matrix_rank_2k_update A B C t)
    (for_range 0 (ext1 A) (fun k => symmetric_matrix_rank_2_update (col A k) (col B k) C t)) m.
Proof.
  intros m A B C t a b c Hsq H1 H2 H3 HA HB HC Hw Hd1 Hd2.
  eapply outer_agree with (C := C) (P := in_tri t) (c := c); [apply in_tri_dec|apply Hw|exact HC|apply syr2k_ok; eauto|].
  intros k m1 g Hk K1 K2.
  assert (mat_holds m1 A a) as HA1 by (eapply mat_holds_frame; eauto).
  assert (mat_holds m1 B b) as HB1 by (eapply mat_holds_frame; eauto).
  apply syr2_ok with (f := fun i => a i k) (g := fun i => b i k); auto;
  [apply col_holds; auto|apply col_holds; auto; lia|apply disjoint_col; auto|apply disjoint_col; auto; lia].
Qed.

(** * One triangle against the whole matrix *)
Lemma sym_of_symmetric : forall t n (a : nat -> nat -> O) i j, symmetric n a -> i < n -> j < n -> sym_of t a i j = a i j.
Proof. intros t n a i j H Hi Hj. unfold sym_of. destruct (in_tri_b t i j); auto. Qed.
Lemma herm_of_hermitian : forall t n (a : nat -> nat -> O) i j, hermitian n a -> i < n -> j < n -> herm_of t a i j = a i j.
Proof.
  intros t n a i j [H1 H2] Hi Hj. unfold herm_of. destruct (Nat.eqb_spec i j) as [->|]; auto.
  destruct (in_tri_b t i j); auto. symmetry. apply H2; auto.
Qed.
Lemma mat_part : forall (m : mem O) A (P : nat -> nat -> Prop) a, mat_holds m A a -> mat_holds_on m A P a.
Proof. intros m A P a H i j Hi Hj _. apply H; auto. exact I. Qed.
Lemma mcells_part : forall (A : mat O) (P : nat -> nat -> Prop) S, disjoint (mcells A) S -> disjoint (mcells_on A P) S.
Proof. intros A P S H c (i & j & Hi & Hj & _ & ->) K. apply (H (maddr A i j)); auto. exists i, j; repeat split; auto. Qed.

Lemma symv_gemv : forall (m : mem O) A t x y a f,
  ext0 A = ext1 A -> vext x = ext1 A -> vext y = ext0 A -> symmetric (ext0 A) a ->
  mat_holds m A a -> vec_holds m x f -> vwritable y -> allocated m (vcells y) ->
  disjoint (mcells A) (vcells y) -> disjoint (vcells x) (vcells y) ->
  agree (symmetric_matrix_vector_product A t x y) (matrix_vector_product A x y) m.
Proof.
  intros m A t x y a f Hsq Hx Hy Hs HA Hf Hw Hal Hd1 Hd2. eapply agree_v with (z := y); [apply Hw| |apply gemv_ok; eauto].
  eapply wp_conseq; [apply symv_ok with (a := a) (f := f); auto; first [apply mat_part|apply mcells_part]; auto|].
  intros [] m' [K1 K2]. split; auto. eapply vec_holds_ext; [|exact K1]. intros i Hi. apply sum_from_ext. intros j Hj.
  cbv beta. rewrite (@sym_of_symmetric t (ext0 A)); auto; lia.
Qed.
Lemma hemv_gemv : forall (m : mem O) A t x y a f,
  ext0 A = ext1 A -> vext x = ext1 A -> vext y = ext0 A -> hermitian (ext0 A) a ->
  mat_holds m A a -> vec_holds m x f -> vwritable y -> allocated m (vcells y) ->
  disjoint (mcells A) (vcells y) -> disjoint (vcells x) (vcells y) ->
  agree (hermitian_matrix_vector_product A t x y) (matrix_vector_product A x y) m.
Proof.
  intros m A t x y a f Hsq Hx Hy Hs HA Hf Hw Hal Hd1 Hd2. eapply agree_v with (z := y); [apply Hw| |apply gemv_ok; eauto].
  eapply wp_conseq; [apply hemv_ok with (a := a) (f := f); auto; first [apply mat_part|apply mcells_part]; auto|].
  intros [] m' [K1 K2]. split; auto. eapply vec_holds_ext; [|exact K1]. intros i Hi. apply sum_from_ext. intros j Hj.
  cbv beta. rewrite (@herm_of_hermitian t (ext0 A)); auto; lia.
Qed.
Lemma symv_upd_gemv : forall (m : mem O) A t x y z a f g,
  ext0 A = ext1 A -> vext x = ext1 A -> vext y = ext0 A -> vext z = ext0 A ->
  mat_holds m A a -> vec_holds m x f -> vec_holds m y g -> vwritable z -> allocated m (vcells z) ->
  disjoint (mcells A) (vcells z) -> disjoint (vcells x) (vcells z) -> disjoint_or_aligned_v y z ->
  (symmetric (ext0 A) a -> agree (symmetric_matrix_vector_product_upd A t x y z) (matrix_vector_product_upd A x y z) m) /\
  (hermitian (ext0 A) a -> agree (hermitian_matrix_vector_product_upd A t x y z) (matrix_vector_product_upd A x y z) m).
Proof.
  intros m A t x y z a f g Hsq Hx Hy Hz HA Hf Hg Hw Hal Hd1 Hd2 Hd3.
  split; intros Hs; (eapply agree_v with (z := z); [apply Hw| |apply gemv_upd_ok with (g := g); eauto]);
  (eapply wp_conseq; [first [apply symv_upd_ok with (a := a) (f := f) (g := g) | apply hemv_upd_ok with (a := a) (f := f) (g := g)];
     auto; first [apply mat_part|apply mcells_part]; auto|]);
  (intros [] m' [K1 K2]; split; auto; eapply vec_holds_ext; [|exact K1]; intros i Hi; apply sum_from_ext; intros j Hj; cbv beta).
  - rewrite (@sym_of_symmetric t (ext0 A)); auto; lia.
  - rewrite (@herm_of_hermitian t (ext0 A)); auto; lia.
Qed.
Lemma symm_gemm : forall (m : mem O) A t B C a b,
  ext0 A = ext1 A -> ext0 C = ext0 A -> ext1 A = ext0 B -> ext1 C = ext1 B ->
  mat_holds m A a -> mat_holds m B b -> mwritable C -> allocated m (mcells C) ->
  disjoint (mcells A) (mcells C) -> disjoint (mcells B) (mcells C) ->
  (symmetric (ext0 A) a -> agree (symmetric_matrix_product_left A t B C) (matrix_product A B C) m) /\
  (hermitian (ext0 A) a -> agree (hermitian_matrix_product_left A t B C) (matrix_product A B C) m).
Proof.
  intros m A t B C a b Hsq H1 H2 H3 HA HB Hw Hal Hd1 Hd2.
  split; intros Hs; (eapply agree_m with (C := C) (P := all2); [apply all2_dec|apply Hw| |apply gemm_ok with (a := a) (b := b); eauto]);
  (eapply wp_conseq; [first [apply symm_left_ok with (a := a) (b := b) | apply hemm_left_ok with (a := a) (b := b)];
     auto; first [apply mat_part|apply mcells_part]; auto|]);
  (intros [] m' [K1 K2]; split; auto; eapply mat_holds_on_ext; [|exact K1]; intros i j Hi Hj _; apply sum_from_ext; intros k Hk; cbv beta).
  - rewrite (@sym_of_symmetric t (ext0 A)); auto; lia.
  - rewrite (@herm_of_hermitian t (ext0 A)); auto; lia.
Qed.
Lemma symm_gemm_right : forall (m : mem O) B A t C a b,
  ext0 A = ext1 A -> ext0 C = ext0 B -> ext1 B = ext0 A -> ext1 C = ext1 A ->
  mat_holds m A a -> mat_holds m B b -> mwritable C -> allocated m (mcells C) ->
  disjoint (mcells A) (mcells C) -> disjoint (mcells B) (mcells C) ->
  (symmetric (ext0 A) a -> agree (symmetric_matrix_product_right B A t C) (matrix_product B A C) m) /\
  (hermitian (ext0 A) a -> agree (hermitian_matrix_product_right B A t C) (matrix_product B A C) m).
Proof.
  intros m B A t C a b Hsq H1 H2 H3 HA HB Hw Hal Hd1 Hd2.
  split; intros Hs; (eapply agree_m with (C := C) (P := all2); [apply all2_dec|apply Hw| |apply gemm_ok with (a := b) (b := a); eauto]);
  (eapply wp_conseq; [first [apply symm_right_ok with (a := a) (b := b) | apply hemm_right_real_ok with (a := a) (b := b); [apply Hs|..]];
     auto; first [apply mat_part|apply mcells_part]; auto|]);
  (intros [] m' [K1 K2]; split; auto; eapply mat_holds_on_ext; [|exact K1]; intros i j Hi Hj _; cbv beta; unfold bigsum;
   replace (ext1 B) with (ext1 A) by lia; apply sum_from_ext; intros k Hk; cbv beta).
  - rewrite (@sym_of_symmetric t (ext0 A)); auto; lia.
  - rewrite (@herm_of_hermitian t (ext0 A)); auto; lia.
Qed.
(** syrk is the triangle of the general product with the transpose. *)
Lemma syrk_gemm : forall fp (m : mem O) A At C t a c,
  transposed fp A = Some At -> layout_ok (mlay A) (ext0 A) (ext1 A) ->
  ext0 C = ext1 C -> ext0 A = ext0 C ->
  mat_holds m A a -> mat_holds m C c -> mwritable C -> disjoint (mcells A) (mcells C) ->
  agree_on C (in_tri t) (symmetric_matrix_rank_k_update A C t) (matrix_product_upd A At C C) m.
Proof.
  intros fp m A At C t a c HT HL Hsq H1 HA HC Hw Hd. destruct (transposed_ext _ _ HT) as (E0 & E1 & _ & _).
  destruct (@syrk_ok O m A C t a c) as ([] & m1 & R1 & K1 & _); auto.
  { apply mat_part; auto. }
  { destruct Hw as [Hw1 Hw2]. split; auto. intros; apply Hw2; auto; exact I. }
  { intros x K1 (i & j & Hi & Hj & _ & ->). apply (Hd (maddr C i j)); auto. exists i, j; repeat split; auto. }
  destruct (@gemm_upd_ok O m A At C C a (fun k j => a j k) c) as ([] & m2 & R2 & K2 & _); auto; try congruence.
  { eapply transposed_holds with (P := all2); eauto. }
  { eapply mat_holds_alloc; eauto. }
  { intros x K2 K3. apply (Hd x); auto. apply (transposed_cells _ _ x HT HL); auto. }
  { right. intros ? ? ? ?; auto. }
  exists m1, m2. split; auto. split; auto. intros i j Hi Hj HP.
  destruct (K1 i j Hi Hj HP) as (v1 & V1 & F1). destruct (K2 i j Hi Hj I) as (v2 & V2 & F2).
  destruct Hw as [Hwd _]. rewrite Hwd in *. simpl in *. congruence.
Qed.

(** * Transposition *)
Lemma gemm_trans : forall fa fb fc (m : mem O) A B C At Bt Ct a b,
  mul_commutes O ->
  transposed fa A = Some At -> transposed fb B = Some Bt -> transposed fc C = Some Ct ->
  layout_ok (mlay A) (ext0 A) (ext1 A) -> layout_ok (mlay B) (ext0 B) (ext1 B) -> layout_ok (mlay C) (ext0 C) (ext1 C) ->
  ext0 C = ext0 A -> ext1 A = ext0 B -> ext1 C = ext1 B ->
  mat_holds m A a -> mat_holds m B b -> mwritable C -> allocated m (mcells C) ->
  disjoint (mcells A) (mcells C) -> disjoint (mcells B) (mcells C) ->
  agree (matrix_product A B C) (matrix_product Bt At Ct) m.
Proof.
  intros. eapply agree_m with (C := C) (P := all2); [apply all2_dec|match goal with H : mwritable C |- _ => apply H end| |].
  - eapply gemm_ok; eauto.
  - eapply gemm_transposed; eauto.
Qed.
End Pf.

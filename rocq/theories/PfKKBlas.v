(** Proofs about the overloads that delegate to KokkosBlas (C68). *)
From Coq Require Import List Arith NArith Lia Bool.
From Verif Require Import Mem Scalar View Spec Wp Alg Sums Idx Blas1 Blas2 Blas3 KK SpecK KKBlas SpecKB
  PfBlas1 PfBlas2 PfTrmv PfBlas3 PfBlas3b PfTrsm PfKK.
Import ListNotations.
Set Implicit Arguments.
Local Open Scope sc_scope.

Section Pf.
Context {O : ops}.

Lemma kcheck_pass : forall n m (p : kprog O), n = m -> kcheck n m p = p.
Proof. intros n m p ->. unfold kcheck. rewrite Nat.eqb_refl. auto. Qed.
Lemma kview_plain : forall (A : mat O) k, plain_m A -> kview A k = k A.
Proof. intros [b e0 e1 l c] k [H1 H2]. simpl in *. subst c. unfold kview; simpl. destruct H2; subst; auto. Qed.

(** The view of an mdspan, when there is one *)
Definition under (A : mat O) : mat O :=
  match mlay A with
  | LTrans l => Mat (mbase A) (ext1 A) (ext0 A) l ADefault
  | l => Mat (mbase A) (ext0 A) (ext1 A) l ADefault
  end.
Lemma kview_viewable : forall (A : mat O) k, viewable_m A -> kview A k = k (under A).
Proof.
  intros [b e0 e1 l c] k H. unfold viewable_m in H; simpl in H.
  destruct H as [H|[H|[H|[H|[]]]]]; subst l; reflexivity.
Qed.
Definition arg_of (A : mat O) : trans_arg := if is_transposed A then ArgT else ArgN.

Lemma under_holds : forall (m : mem O) A a, viewable_m A -> macc A = ADefault -> mat_holds m A a ->
  mat_holds m (under A) (op_of (arg_of A) a).
Proof.
  intros m [b e0 e1 l c] a H Hc Ha. simpl in Hc. subst c. unfold viewable_m in H; simpl in H.
  destruct H as [H|[H|[H|[H|[]]]]]; subst l; unfold under, arg_of, is_transposed; simpl;
    intros i j Hi Hj _; simpl in *.
  - exact (Ha i j Hi Hj I).
  - exact (Ha i j Hi Hj I).
  - exact (Ha j i Hj Hi I).
  - exact (Ha j i Hj Hi I).
Qed.
Lemma under_cells : forall (A : mat O) c, viewable_m A -> mcells (under A) c <-> mcells A c.
Proof.
  intros [b e0 e1 l ac] c H. unfold viewable_m in H; simpl in H.
  destruct H as [H|[H|[H|[H|[]]]]]; subst l; unfold under, mcells, mcells_on, maddr; simpl; try tauto;
  split; intros (i & j & Hi & Hj & Hx & E); exists j, i; auto.
Qed.
Lemma under_op : forall (A : mat O), viewable_m A -> op_rows (arg_of A) (under A) = ext0 A /\ op_cols (arg_of A) (under A) = ext1 A /\ macc (under A) = ADefault.
Proof.
  intros [b e0 e1 l c] H. unfold viewable_m in H; simpl in H.
  destruct H as [H|[H|[H|[H|[]]]]]; subst l; auto.
Qed.
Lemma op_of_op : forall tr (a : nat -> nat -> O) i j, op_of tr (op_of tr a) i j = a i j.
Proof. destruct tr; auto. Qed.

(** * Carrying out a call: a memory within the guarantees exists *)
Definition mval (m : mem O) (A : mat O) (i j : nat) : O := match m (maddr A i j) with Some v => v | None => zero end.
Definition vval (m : mem O) (x : vec O) (i : nat) : O := match m (vaddr x i) with Some v => v | None => zero end.
Lemma mval_holds_on : forall (m : mem O) A P, macc A = ADefault -> allocated m (mcells_on A P) -> mat_holds_on m A P (mval m A).
Proof.
  intros m A P Ha H i j Hi Hj HP. unfold mval. specialize (H (maddr A i j)).
  destruct (m (maddr A i j)) as [v|] eqn:E.
  - exists v. rewrite Ha; auto.
  - exfalso. apply H; auto. exists i, j; auto.
Qed.
Lemma mval_holds : forall (m : mem O) A, macc A = ADefault -> allocated m (mcells A) -> mat_holds m A (mval m A).
Proof. intros. apply mval_holds_on; auto. Qed.
Lemma vval_holds : forall (m : mem O) x, vacc x = ADefault -> allocated m (vcells x) -> vec_holds m x (vval m x).
Proof.
  intros m x Ha H i Hi. unfold vval. specialize (H (vaddr x i)).
  destruct (m (vaddr x i)) as [v|] eqn:E.
  - exists v. rewrite Ha; auto.
  - exfalso. apply H; auto. exists i; auto.
Qed.

Lemma run_exists : forall (I : Type) (i0 : I) (p : prog O unit) (m : mem O) (P : I -> mem O -> Prop),
  (forall i, succeeds p m (fun _ m' => P i m')) -> exists m', forall i, P i m'.
Proof.
  intros I i0 p m P H. destruct (H i0) as (x & m' & E & _). exists m'. intros i.
  destruct (H i) as (x2 & m2 & E2 & K). rewrite E in E2. injection E2 as <- <-. auto.
Qed.
Lemma run_exists2 : forall (A B : Type) (P : A -> Prop) (Q : B -> Prop) (p : prog O unit) (m : mem O) (R : A -> B -> mem O -> Prop) (S : mem O -> Prop),
  (exists a, P a) -> (exists b, Q b) ->
  (forall a b, P a -> Q b -> succeeds p m (fun _ m' => R a b m' /\ S m')) ->
  exists m', (forall a b, P a -> Q b -> R a b m') /\ S m'.
Proof.
  intros A B P Q p m R S [a0 Ha0] [b0 Hb0] H. destruct (H a0 b0 Ha0 Hb0) as (x & m' & E & _ & HS). exists m'. split; auto. intros a b Ha Hb.
  destruct (H a b Ha Hb) as (x2 & m2 & E2 & K & _). rewrite E in E2. injection E2 as <- <-. auto.
Qed.
Lemma run_exists1 : forall (A : Type) (P : A -> Prop) (p : prog O unit) (m : mem O) (R : A -> mem O -> Prop) (S : mem O -> Prop),
  (exists a, P a) ->
  (forall a, P a -> succeeds p m (fun _ m' => R a m' /\ S m')) ->
  exists m', (forall a, P a -> R a m') /\ S m'.
Proof.
  intros A P p m R S [a0 Ha0] H. destruct (H a0 Ha0) as (x & m' & E & _ & HS). exists m'. split; auto. intros a Ha.
  destruct (H a Ha) as (x2 & m2 & E2 & K & _). rewrite E in E2. injection E2 as <- <-. auto.
Qed.

Lemma vec_holds_ext : forall (m : mem O) x f g, vec_holds m x f -> (forall i, i < vext x -> f i = g i) -> vec_holds m x g.
Proof. intros m x f g H E i Hi. destruct (H i Hi) as (v & Hv & Ev). exists v. rewrite <- E; auto. Qed.
Lemma mat_holds_ext : forall (m : mem O) x f g, mat_holds m x f -> (forall i j, i < ext0 x -> j < ext1 x -> f i j = g i j) -> mat_holds m x g.
Proof. intros m x f g H E i j Hi Hj HP. destruct (H i j Hi Hj HP) as (v & Hv & Ev). exists v. rewrite <- E; auto. Qed.

(** ** gemm and gemv *)
(** op(A) as an mdspan *)
Definition opm (tr : trans_arg) (A : mat O) : mat O :=
  match tr with ArgN => A | ArgT => Mat (mbase A) (ext1 A) (ext0 A) (LTrans (mlay A)) (macc A) end.
Lemma opm_holds : forall tr (m : mem O) A a, mat_holds m A a -> mat_holds m (opm tr A) (op_of tr a).
Proof. intros [] m A a H; auto. intros i j Hi Hj _. exact (H j i Hj Hi I). Qed.
Lemma opm_cells : forall tr (A : mat O) c, mcells (opm tr A) c -> mcells A c.
Proof. intros [] A c; auto. intros (i & j & Hi & Hj & _ & E). exists j, i. repeat split; auto. Qed.
Lemma opm_ext : forall tr (A : mat O), ext0 (opm tr A) = op_rows tr A /\ ext1 (opm tr A) = op_cols tr A.
Proof. intros [] A; auto. Qed.

Lemma gemm_post_exists : forall rev ta tb (m : mem O) A B C, ring_laws O ->
  kpre rev (KGemm ta tb one A B zero C) m -> exists m', kpost rev (KGemm ta tb one A B zero C) m m'.
Proof.
  intros rev ta tb m A B C L (E1 & E2 & E3 & HA & HB & HC & Hw & Da & Db & D1 & D2). simpl.
  destruct (opm_ext ta A) as [Ea0 Ea1]. destruct (opm_ext tb B) as [Eb0 Eb1].
  apply run_exists2 with (m := m) (P := mat_holds m A) (Q := mat_holds m B) (p := matrix_product (opm ta A) (opm tb B) C).
  { exists (mval m A). apply mval_holds; auto. }
  { exists (mval m B). apply mval_holds; auto. }
  intros a b Ha Hb. eapply wp_conseq.
  { apply gemm_ok with (a := op_of ta a) (b := op_of tb b); auto using opm_holds; try congruence.
    - intros c H1 H2. apply (D1 c); auto. eapply opm_cells; eauto.
    - intros c H1 H2. apply (D2 c); auto. eapply opm_cells; eauto. }
  intros [] m' [H1 H2]. split; auto. split; [|congruence]. intros _.
  eapply mat_holds_ext; [exact H1|]. intros i j _ _. rewrite (mul_1_l L). rewrite Ea1. reflexivity.
Qed.
Lemma gemv_post_exists : forall rev tr (m : mem O) A x y, ring_laws O ->
  kpre rev (KGemv tr one A x zero y) m -> exists m', kpost rev (KGemv tr one A x zero y) m m'.
Proof.
  intros rev tr m A x y L (E1 & E2 & HA & HB & HC & Hw & Da & Db & D1 & D2). simpl.
  destruct (opm_ext tr A) as [Ea0 Ea1].
  apply run_exists2 with (m := m) (P := mat_holds m A) (Q := vec_holds m x) (p := matrix_vector_product (opm tr A) x y).
  { exists (mval m A). apply mval_holds; auto. }
  { exists (vval m x). apply vval_holds; auto. }
  intros a f Ha Hf. eapply wp_conseq.
  { apply gemv_ok with (a := op_of tr a) (f := f); auto using opm_holds; try congruence.
    intros c H1 H2. apply (D1 c); auto. eapply opm_cells; eauto. }
  intros [] m' [H1 H2]. split; auto. split; [|congruence]. intros _.
  eapply vec_holds_ext; [exact H1|]. intros i _. rewrite (mul_1_l L). rewrite Ea1, E2. reflexivity.
Qed.

(** ** update, scal, copy *)
Lemma update1_post_exists : forall rev (m : mem O) x y z, ring_laws O ->
  kpre rev (KUpdate1 one x one y zero z) m -> exists m', kpost rev (KUpdate1 one x one y zero z) m m'.
Proof.
  intros rev m x y z L (E1 & E2 & HA & HB & HC & Hw & Da & Db & D1 & D2). simpl.
  apply run_exists2 with (m := m) (P := vec_holds m x) (Q := vec_holds m y) (p := add_1 x y z);
    [exists (vval m x); apply vval_holds; auto|exists (vval m y); apply vval_holds; auto|].
  intros f g Hf Hg. eapply wp_conseq. { apply add_1_ok with (f := f) (g := g); auto. }
  intros [] m' [H1 H2]. split; auto. split; [|congruence]. intros _.
  eapply vec_holds_ext; [exact H1|]. intros i _. simpl. rewrite !(mul_1_l L). auto.
Qed.
Lemma update2_post_exists : forall rev (m : mem O) x y z, ring_laws O ->
  kpre rev (KUpdate2 one x one y zero z) m -> exists m', kpost rev (KUpdate2 one x one y zero z) m m'.
Proof.
  intros rev m x y z L (E1 & E2 & E3 & E4 & HA & HB & HC & Hw & Da & Db & D1 & D2). simpl.
  apply run_exists2 with (m := m) (P := mat_holds m x) (Q := mat_holds m y) (p := add_2 x y z);
    [exists (mval m x); apply mval_holds; auto|exists (mval m y); apply mval_holds; auto|].
  intros f g Hf Hg. eapply wp_conseq. { apply add_2_ok with (f := f) (g := g); auto. }
  intros [] m' [H1 H2]. split; auto. split; [|congruence]. intros _.
  eapply mat_holds_ext; [exact H1|]. intros i j _ _. simpl. rewrite !(mul_1_l L). auto.
Qed.
Lemma scal1_post_exists : forall rev (m : mem O) alpha x, mul_commutes O ->
  kpre rev (KScal1 x alpha x) m -> exists m', kpost rev (KScal1 x alpha x) m m'.
Proof.
  intros rev m alpha x L (_ & HA & _ & Hw & Da & _). simpl.
  apply run_exists1 with (m := m) (P := vec_holds m x) (p := scale_1 alpha x); [exists (vval m x); apply vval_holds; auto|].
  intros f Hf. eapply wp_conseq. { apply scale_1_ok with (f := f); auto. }
  intros [] m' [H1 H2]. split; auto. eapply vec_holds_ext; [exact H1|]. intros i _. simpl. apply L.
Qed.
Lemma scal2_post_exists : forall rev (m : mem O) alpha x, mul_commutes O ->
  kpre rev (KScal2 x alpha x) m -> exists m', kpost rev (KScal2 x alpha x) m m'.
Proof.
  intros rev m alpha x L (_ & _ & HA & _ & Hw & Da & _). simpl.
  apply run_exists1 with (m := m) (P := mat_holds m x) (p := scale_2 alpha x); [exists (mval m x); apply mval_holds; auto|].
  intros f Hf. eapply wp_conseq. { apply scale_2_ok with (f := f); auto. }
  intros [] m' [H1 H2]. split; auto. eapply mat_holds_ext; [exact H1|]. intros i j _ _. simpl. apply L.
Qed.
Lemma copy1_post_exists : forall rev (m : mem O) r x,
  kpre rev (KCopy1 r x) m -> exists m', kpost rev (KCopy1 r x) m m'.
Proof.
  intros rev m r x (E & HA & HB & Hw & Da & D). simpl.
  apply run_exists1 with (m := m) (P := vec_holds m x) (p := copy_1 x r); [exists (vval m x); apply vval_holds; auto|].
  intros f Hf. apply copy_1_ok; auto.
Qed.
Lemma copy2_post_exists : forall rev (m : mem O) r x,
  kpre rev (KCopy2 r x) m -> exists m', kpost rev (KCopy2 r x) m m'.
Proof.
  intros rev m r x (E & E' & HA & HB & Hw & Da & D). simpl.
  apply run_exists1 with (m := m) (P := mat_holds m x) (p := copy_2 x r); [exists (mval m x); apply mval_holds; auto|].
  intros f Hf. apply copy_2_ok; auto.
Qed.

(** ** trmm, trsm *)
Lemma mat_holds_on_ext : forall (m : mem O) x P f g, mat_holds_on m x P f -> (forall i j, i < ext0 x -> j < ext1 x -> P i j -> f i j = g i j) -> mat_holds_on m x P g.
Proof. intros m x P f g H E i j Hi Hj HP. destruct (H i j Hi Hj HP) as (v & Hv & Ev). exists v. rewrite <- E; auto. Qed.

Lemma trmm_post_exists : forall rev s u dg (m : mem O) A X, ring_laws O ->
  kpre rev (KTrmm s u ArgN dg one A X) m -> exists m', kpost rev (KTrmm s u ArgN dg one A X) m m'.
Proof.
  intros rev s u dg m A X L (E1 & E2 & HA & HX & Hw & Da & D). simpl.
  set (t := uplo_tri rev u) in *. set (d := diag_of dg) in *.
  apply run_exists2 with (m := m) (P := mat_holds_on m A (stored t d)) (Q := mat_holds m X)
    (p := match s with SideL => triangular_matrix_left_product A t d X | SideR => triangular_matrix_right_product A t d X end).
  { exists (mval m A). apply mval_holds_on; auto. }
  { exists (mval m X). apply mval_holds; auto. apply Hw. }
  intros a b Ha Hb. destruct s; (eapply wp_conseq;
    [first [apply trmm_left_inplace_ok with (a := a) (c := b)|apply trmm_right_inplace_ok with (a := a) (c := b)]; auto|]);
  intros [] m' [H1 H2]; split; auto; (eapply mat_holds_ext; [exact H1|]); intros i j _ _; simpl; rewrite (mul_1_l L), ?E1; auto.
Qed.
Lemma trsm_post_exists : forall rev s u dg (m : mem O) A X, ring_laws O -> div_laws O -> fits U64 (ext0 A) ->
  kpre rev (KTrsm s u ArgN dg one A X) m -> exists m', kpost rev (KTrsm s u ArgN dg one A X) m m'.
Proof.
  intros rev s u dg m A X L D' Hf ((E1 & E2 & HA & HX & Hw & Da & D) & Hnz). simpl.
  set (t := uplo_tri rev u) in *. set (d := diag_of dg) in *.
  apply run_exists2 with (m := m) (P := mat_holds_on m A (stored t d)) (Q := mat_holds m X)
    (p := match s with SideL => triangular_matrix_matrix_left_solve U64 A t d X X | SideR => triangular_matrix_matrix_right_solve U64 A t d X X end).
  { exists (mval m A). apply mval_holds_on; auto. }
  { exists (mval m X). apply mval_holds; auto. apply Hw. }
  intros a b Ha Hb.
  assert (Hd : d = Explicit -> forall i, i < ext0 A -> a i i <> zero).
  { intros Ed i Hi. destruct dg; [|discriminate]. 
    assert (Hs : stored t d i i). { split; [destruct t; simpl; lia|unfold d; simpl; discriminate]. }
    destruct (Ha i i Hi ltac:(lia) Hs) as (v & Hv & Ev). rewrite Da in Ev. simpl in Ev. rewrite <- Ev. eapply Hnz; eauto. }
  assert (Hal : disjoint_or_aligned_m X X). { right. intros i j _ _. auto. }
  destruct s; (eapply wp_conseq;
    [first [apply trsm_left_field_ok with (a := a) (b := b)|apply trsm_right_index_ok with (a := a) (b := b)]; auto; try congruence; simpl; tauto|]);
  intros [] m' [(x & H1 & H3) H2]; split; auto; exists x; split; auto; intros i j Hi Hj; rewrite (mul_1_l L); simpl; auto.
Qed.

(** * The overloads *)
Lemma holds_alloc_m : forall (m : mem O) A P a, mat_holds_on m A P a -> allocated m (mcells_on A P).
Proof. intros m A P a H c (i & j & Hi & Hj & HP & ->). destruct (H i j Hi Hj HP) as (v & -> & _). discriminate. Qed.
Lemma holds_alloc_v : forall (m : mem O) x f, vec_holds m x f -> allocated m (vcells x).
Proof. intros m x f H c (i & Hi & ->). destruct (H i Hi) as (v & -> & _). discriminate. Qed.
Lemma view_v_holds_back : forall (m : mem O) x f, plain_v x -> vec_holds m (view_v x) f -> vec_holds m x f.
Proof.
  intros m x f Hp H i Hi. destruct (H i Hi) as (v & Hv & E). exists v. rewrite view_v_addr in Hv by auto.
  destruct Hp as [-> _]. auto.
Qed.
Lemma view_v_changes : forall (m m' : mem O) (x : vec O), plain_v x -> changes_only m m' (vcells (view_v x)) -> changes_only m m' (vcells x).
Proof. intros m m' x Hp H a Ha. apply H. intros Hv. apply Ha. apply view_v_cells; auto. Qed.
Lemma view_v_alloc : forall (m : mem O) (x : vec O), plain_v x -> allocated m (vcells x) -> allocated m (vcells (view_v x)).
Proof. intros m x Hp H a Ha. apply H. apply view_v_cells; auto. Qed.
Lemma view_v_disjoint_r : forall (x : vec O) S, plain_v x -> disjoint S (vcells x) -> disjoint S (vcells (view_v x)).
Proof. intros x S Hp Hd a H1 H2. apply (Hd a); auto. apply view_v_cells; auto. Qed.
Lemma view_v_doa : forall (x z : vec O), plain_v x -> plain_v z -> vext x = vext z -> disjoint_or_aligned_v x z ->
  disjoint_or_aligned_v (view_v x) (view_v z).
Proof.
  intros x z Hx Hz E [H|H]; [left|right].
  - apply view_v_disjoint; auto. apply view_v_disjoint_r; auto.
  - intros i Hi. change (vext (view_v z)) with (vext z) in Hi. rewrite !view_v_addr; auto. lia.
Qed.
Lemma plain_m_writable : forall (A : mat O), plain_m A -> mwritable A.
Proof.
  intros [b e0 e1 l c] [H1 H2]. simpl in *. subst c. split; auto.
  intros i j i' j' Hi Hj Hi' Hj' _ _. unfold maddr; simpl in *. destruct H2; subst l; simpl; intros E.
  - assert ((i + e0 * j)%nat = (i' + e0 * j')%nat) as E' by lia. clear E. assert (j = j') by nia. subst. split; auto. nia.
  - assert ((i * e1 + j)%nat = (i' * e1 + j')%nat) as E' by lia. clear E. assert (i = i') by nia. subst. split; auto. nia.
Qed.

Ltac conjs := repeat match goal with |- _ /\ _ => split end.
Ltac pre := cbn [kpre]; unfold tri_pre; conjs; solve
  [ eassumption | simpl; congruence | match goal with H : plain_m ?x |- macc ?x = _ => apply H end
  | apply view_v_writable | apply plain_m_writable; assumption
  | apply view_v_alloc; assumption | eapply holds_alloc_v, view_v_holds; eassumption | eapply holds_alloc_m; eassumption
  | apply view_v_doa; first [assumption|congruence] | right; intros ? ?; auto
  | apply view_v_disjoint; [assumption|apply view_v_disjoint_r; assumption] | apply view_v_disjoint_r; assumption ].
Ltac passes := rewrite ?kcheck_pass by congruence; rewrite ?kview_plain by auto.

Lemma kb_add_1_ok : forall rev (m : mem O) x y z f g, ring_laws O -> plain_v x -> plain_v y -> plain_v z ->
  vext x = vext y -> vext y = vext z -> vec_holds m x f -> vec_holds m y g -> allocated m (vcells z) ->
  disjoint_or_aligned_v x z -> disjoint_or_aligned_v y z ->
  kb_ensures rev (kb_add_1 x y z) m (fun m' => vec_holds m' z (fun i => f i + g i) /\ changes_only m m' (vcells z)).
Proof.
  intros rev m x y z f g L Px Py Pz E1 E2 Hx Hy Hz D1 D2. unfold kb_add_1. passes. cbn [kb_ensures].
  assert (Hpre : kpre rev (KUpdate1 one (view_v x) one (view_v y) zero (view_v z)) m).
  { pre. }
  split; [exact Hpre|]. split; [apply update1_post_exists; auto|].
  intros m' [H1 H2]. split; [|apply view_v_changes; auto].
  destruct (H1 f g) as [H3 _]; auto using view_v_holds. apply view_v_holds_back; auto.
  eapply vec_holds_ext; [apply H3; auto|]. intros i _. simpl. rewrite !(mul_1_l L). auto.
Qed.
Lemma kb_add_2_ok : forall rev (m : mem O) x y z f g, ring_laws O -> plain_m x -> plain_m y -> plain_m z ->
  ext0 x = ext0 y -> ext1 x = ext1 y -> ext0 y = ext0 z -> ext1 y = ext1 z ->
  mat_holds m x f -> mat_holds m y g -> allocated m (mcells z) ->
  disjoint_or_aligned_m x z -> disjoint_or_aligned_m y z ->
  kb_ensures rev (kb_add_2 x y z) m (fun m' => mat_holds m' z (fun i j => f i j + g i j) /\ changes_only m m' (mcells z)).
Proof.
  intros rev m x y z f g L Px Py Pz E1 E2 E3 E4 Hx Hy Hz D1 D2. unfold kb_add_2. passes. cbn [kb_ensures].
  assert (Hpre : kpre rev (KUpdate2 one x one y zero z) m).
  { pre. }
  split; [exact Hpre|]. split; [apply update2_post_exists; auto|].
  intros m' [H1 H2]. split; auto.
  destruct (H1 f g) as [H3 _]; auto. 
  eapply mat_holds_ext; [apply H3; auto|]. intros i j _ _. simpl. rewrite !(mul_1_l L). auto.
Qed.
Lemma kb_scale_1_ok : forall rev (m : mem O) alpha x f, mul_commutes O -> plain_v x -> vec_holds m x f ->
  kb_ensures rev (kb_scale_1 alpha x) m (fun m' => vec_holds m' x (fun i => f i * alpha) /\ changes_only m m' (vcells x)).
Proof.
  intros rev m alpha x f L Px Hx. unfold kb_scale_1. cbn [kb_ensures].
  assert (Hpre : kpre rev (KScal1 (view_v x) alpha (view_v x)) m).
  { pre. }
  split; [exact Hpre|]. split; [apply scal1_post_exists; auto|].
  intros m' [H1 H2]. split; [|apply view_v_changes; auto]. apply view_v_holds_back; auto.
  eapply vec_holds_ext; [apply H1, view_v_holds; eauto|]. intros i _. apply L.
Qed.
Lemma kb_scale_2_ok : forall rev (m : mem O) alpha x f, mul_commutes O -> plain_m x -> mat_holds m x f ->
  kb_ensures rev (kb_scale_2 alpha x) m (fun m' => mat_holds m' x (fun i j => f i j * alpha) /\ changes_only m m' (mcells x)).
Proof.
  intros rev m alpha x f L Px Hx. unfold kb_scale_2. passes. cbn [kb_ensures].
  assert (Hpre : kpre rev (KScal2 x alpha x) m).
  { pre. }
  split; [exact Hpre|]. split; [apply scal2_post_exists; auto|].
  intros m' [H1 H2]. split; auto.
  eapply mat_holds_ext; [apply H1; eauto|]. intros i j _ _. apply L.
Qed.
Lemma kb_copy_1_ok : forall rev (m : mem O) x y f, plain_v x -> plain_v y -> vext x = vext y -> vec_holds m x f ->
  allocated m (vcells y) -> disjoint_or_aligned_v x y ->
  kb_ensures rev (kb_copy_1 x y) m (fun m' => vec_holds m' y f /\ changes_only m m' (vcells y)).
Proof.
  intros rev m x y f Px Py E Hx Hy D. unfold kb_copy_1. cbn [kb_ensures].
  assert (Hpre : kpre rev (KCopy1 (view_v y) (view_v x)) m).
  { pre. }
  split; [exact Hpre|]. split; [apply copy1_post_exists with (rev := rev); auto|].
  intros m' [H1 H2]. split; [|apply view_v_changes; auto]. apply view_v_holds_back; auto. apply H1, view_v_holds; auto.
Qed.
Lemma kb_copy_2_ok : forall rev (m : mem O) x y f, plain_m x -> plain_m y -> ext0 x = ext0 y -> ext1 x = ext1 y -> mat_holds m x f ->
  allocated m (mcells y) -> disjoint_or_aligned_m x y ->
  kb_ensures rev (kb_copy_2 x y) m (fun m' => mat_holds m' y f /\ changes_only m m' (mcells y)).
Proof.
  intros rev m x y f Px Py E E' Hx Hy D. unfold kb_copy_2. passes. cbn [kb_ensures].
  assert (Hpre : kpre rev (KCopy2 y x) m).
  { pre. }
  split; [exact Hpre|]. split; [apply copy2_post_exists with (rev := rev); auto|].
  intros m' [H1 H2]. split; auto.
Qed.

Lemma kb_gemv_ok : forall rev (m : mem O) A x y a f, ring_laws O -> plain_m A -> plain_v x -> plain_v y ->
  ext1 A = vext x -> ext0 A = vext y -> mat_holds m A a -> vec_holds m x f -> allocated m (vcells y) ->
  disjoint (mcells A) (vcells y) -> disjoint (vcells x) (vcells y) ->
  kb_ensures rev (kb_matrix_vector_product A x y) m (fun m' =>
    vec_holds m' y (fun i => bigsum (ext1 A) (fun j => a i j * f j)) /\ changes_only m m' (vcells y)).
Proof.
  intros rev m A x y a f L PA Px Py E1 E2 HA Hx Hy D1 D2. unfold kb_matrix_vector_product. passes. cbn [kb_ensures].
  assert (Hpre : kpre rev (KGemv ArgN one A (view_v x) zero (view_v y)) m).
  { pre. }
  split; [exact Hpre|]. split; [apply gemv_post_exists with (rev := rev); auto|].
  intros m' [H1 H2]. split; [|apply view_v_changes; auto]. apply view_v_holds_back; auto.
  destruct (H1 a f) as [H3 _]; auto using view_v_holds.
  eapply vec_holds_ext; [apply H3; auto|]. intros i _. simpl. rewrite (mul_1_l L), E1. auto.
Qed.

Lemma viewable_not_both : forall (A B : mat O), ~ (has_transposed_layout A /\ has_transposed_layout B) ->
  is_transposed A && is_transposed B = false.
Proof.
  intros A B H. unfold is_transposed. destruct (mlay A) eqn:EA; auto. destruct (mlay B) eqn:EB; auto.
  exfalso. apply H. split; [exists l|exists l0]; auto.
Qed.
Lemma is_default_true : forall (a : acc O), is_default a = true -> a = ADefault.
Proof. intros []; simpl; congruence. Qed.

Lemma kb_gemm_ok : forall rev (m : mem O) A B C a b, ring_laws O -> viewable_m A -> viewable_m B -> plain_m C ->
  ~ (has_transposed_layout A /\ has_transposed_layout B) ->
  ext1 A = ext0 B -> ext0 A = ext0 C -> ext1 B = ext1 C -> mat_holds m A a -> mat_holds m B b -> allocated m (mcells C) ->
  disjoint (mcells A) (mcells C) -> disjoint (mcells B) (mcells C) ->
  kb_ensures rev (kb_matrix_product A B C) m (fun m' =>
    mat_holds m' C (fun i j => bigsum (ext1 A) (fun k => a i k * b k j)) /\ changes_only m m' (mcells C)).
Proof.
  intros rev m A B C a b L VA VB PC Hn E1 E2 E3 HA HB HC D1 D2. unfold kb_matrix_product.
  rewrite (viewable_not_both Hn). passes. rewrite !kview_viewable by auto. rewrite kview_plain by auto.
  pose proof (plain_m_writable PC) as HwC.
  destruct (is_default (macc A) && is_default (macc B) && is_default (macc C)) eqn:Ed.
  - apply andb_true_iff in Ed. destruct Ed as [Ed _]. apply andb_true_iff in Ed. destruct Ed as [Ea Eb].
    apply is_default_true in Ea. apply is_default_true in Eb.
    fold (arg_of A). fold (arg_of B). cbn [kb_ensures].
    destruct (under_op VA) as (Ra & Ca & Da). destruct (under_op VB) as (Rb & Cb & Db).
    pose proof (under_holds VA Ea HA) as HA'. pose proof (under_holds VB Eb HB) as HB'.
    assert (Hpre : kpre rev (KGemm (arg_of A) (arg_of B) one (under A) (under B) zero C) m).
    { unfold kpre. repeat match goal with |- _ /\ _ => split end; auto; try congruence; try (eapply holds_alloc_m; eauto; fail);
      intros c K1 K2; [apply (D1 c)|apply (D2 c)]; auto; apply under_cells; auto. }
    split; [exact Hpre|]. split; [apply gemm_post_exists; auto|].
    intros m' [H1 H2]. split; auto. destruct (H1 _ _ HA' HB') as [H3 _].
    eapply mat_holds_ext; [apply H3; auto|]. intros i j _ _. cbv beta. rewrite (mul_1_l L), Ca.
    unfold bigsum; apply sum_from_ext. intros k _. rewrite !op_of_op. auto.
  - cbn [kb_ensures]. eapply wp_conseq; [apply gemm_ok with (a := a) (b := b); auto|]. auto.
Qed.

(** * Triangular solves, "L" and "U" as in the BLAS *)
Lemma alloc_of_changes : forall (m m' : mem O) A P a (C : mat O) c, mat_holds_on m A P a -> mat_holds m' C c -> changes_only m m' (mcells C) ->
  disjoint (mcells_on A P) (mcells C) -> mat_holds_on m' A P a.
Proof.
  intros m m' A P a C c HA _ Hc D i j Hi Hj HP. destruct (HA i j Hi Hj HP) as (v & Hv & E). exists v. split; auto.
  rewrite Hc; auto. intros K. apply (D (maddr A i j)); auto. exists i, j; auto.
Qed.
Lemma stored_diag_nonzero : forall (m : mem O) A t d a, macc A = ADefault -> ext0 A = ext1 A -> mat_holds_on m A (stored t d) a ->
  (d = Explicit -> forall i, i < ext0 A -> a i i <> zero) ->
  match d with Explicit => DiagN | ImplicitUnit => DiagU end = DiagN ->
  forall i v, i < ext0 A -> m (maddr A i i) = Some v -> v <> zero.
Proof.
  intros m A t d a Da E HA Hnz Ed i v Hi Hv. destruct d; [|discriminate].
  assert (Hs : stored t Explicit i i). { split; [destruct t; simpl; lia|discriminate]. }
  destruct (HA i i Hi ltac:(lia) Hs) as (w & Hw & Ew). rewrite Da in Ew. simpl in Ew. rewrite Hv in Hw. injection Hw as <-. rewrite Ew. auto.
Qed.
Lemma uplo_lit : forall t, uplo_tri false (match t with Lower => UploL | Upper => UploU end) = t.
Proof. intros []; auto. Qed.
Lemma uplo_lit_rev : forall t, uplo_tri true (match t with Lower => UploU | Upper => UploL end) = t.
Proof. intros []; auto. Qed.
Lemma diag_lit : forall d, diag_of (match d with Explicit => DiagN | ImplicitUnit => DiagU end) = d.
Proof. intros []; auto. Qed.

Lemma kb_trsm_ok : forall s (m : mem O) A t d X a b (Q : mem O -> Prop), ring_laws O -> div_laws O -> fits U64 (ext0 A) ->
  plain_m A -> plain_m X -> ext0 A = ext1 A -> (match s with SideL => ext0 X | SideR => ext1 X end) = ext0 A ->
  mat_holds_on m A (stored t d) a -> mat_holds m X b -> disjoint (mcells_on A (stored t d)) (mcells X) ->
  (d = Explicit -> forall i, i < ext0 A -> a i i <> zero) ->
  (forall m' x, mat_holds m' X x -> changes_only m m' (mcells X) ->
    (forall i j, i < ext0 X -> j < ext1 X ->
      match s with SideL => bigsum (ext0 A) (fun k => tri_of t d a i k * x k j)
                 | SideR => bigsum (ext0 A) (fun k => x i k * tri_of t d a k j) end = b i j) -> Q m') ->
  kb_ensures false (kb_trsm s t d A X) m Q.
Proof.
  intros s m A t d X a b Q L D' Hf PA PX E1 E2 HA HX D Hnz HQ. unfold kb_trsm. cbn [kb_ensures].
  assert (Hpre : kpre false (KTrsm s (match t with Lower => UploL | Upper => UploU end) ArgN
    (match d with Explicit => DiagN | ImplicitUnit => DiagU end) one A X) m).
  { cbn [kpre]. rewrite uplo_lit, diag_lit. split; [|eapply stored_diag_nonzero; eauto; apply PA].
    unfold tri_pre. conjs; auto; try apply PA; try apply (plain_m_writable PX); eapply holds_alloc_m; eauto. }
  split; [exact Hpre|]. split; [apply trsm_post_exists with (rev := false); auto|].
  intros m' [H1 H2]. rewrite uplo_lit, diag_lit in H1. destruct (H1 a b HA HX) as (x & H3 & H4).
  apply (HQ m' x); auto. intros i j Hi Hj. specialize (H4 i j Hi Hj). rewrite (mul_1_l L) in H4. destruct s; exact H4.
Qed.

Lemma kb_left_solve_ok : forall (m : mem O) A t d B X a b, ring_laws O -> div_laws O -> fits U64 (ext0 A) ->
  plain_m A -> plain_m B -> plain_m X -> ext0 A = ext1 A -> ext1 A = ext0 B -> ext0 X = ext0 B -> ext1 X = ext1 B ->
  mat_holds_on m A (stored t d) a -> mat_holds m B b -> allocated m (mcells X) ->
  disjoint (mcells_on A (stored t d)) (mcells X) -> disjoint_or_aligned_m B X ->
  (d = Explicit -> forall i, i < ext0 A -> a i i <> zero) ->
  kb_ensures false (kb_triangular_matrix_matrix_left_solve A t d B X) m (fun m' =>
    (exists x, mat_holds m' X x /\
      forall i j, i < ext0 X -> j < ext1 X -> bigsum (ext0 A) (fun k => tri_of t d a i k * x k j) = b i j)
    /\ changes_only m m' (mcells X)).
Proof.
  intros m A t d B X a b L D' Hf PA PB PX E1 E2 E3 E4 HA HB HX D1 D2 Hnz.
  unfold kb_triangular_matrix_matrix_left_solve. passes. cbn [kb_ensures].
  assert (Hpre : kpre false (KCopy2 X B) m).
  { pre. }
  split; [exact Hpre|]. split; [apply copy2_post_exists with (rev := false); auto|].
  intros m1 [H1 H2]. specialize (H1 _ HB).
  apply kb_trsm_ok with (a := a) (b := b); auto; try congruence.
  { eapply alloc_of_changes; eauto. }
  intros m' x K1 K2 K3. split; [exists x; auto|]. intros c Hc. rewrite K2, H2; auto.
Qed.
Lemma kb_right_solve_ok : forall (m : mem O) A t d B X a b, ring_laws O -> div_laws O -> fits U64 (ext0 A) ->
  plain_m A -> plain_m B -> plain_m X -> ext0 A = ext1 A -> ext1 A = ext1 B -> ext0 X = ext0 B -> ext1 X = ext1 B ->
  mat_holds_on m A (stored t d) a -> mat_holds m B b -> allocated m (mcells X) ->
  disjoint (mcells_on A (stored t d)) (mcells X) -> disjoint_or_aligned_m B X ->
  (d = Explicit -> forall i, i < ext0 A -> a i i <> zero) ->
  kb_ensures false (kb_triangular_matrix_matrix_right_solve A t d B X) m (fun m' =>
    (exists x, mat_holds m' X x /\
      forall i j, i < ext0 X -> j < ext1 X -> bigsum (ext0 A) (fun k => x i k * tri_of t d a k j) = b i j)
    /\ changes_only m m' (mcells X)).
Proof.
  intros m A t d B X a b L D' Hf PA PB PX E1 E2 E3 E4 HA HB HX D1 D2 Hnz.
  unfold kb_triangular_matrix_matrix_right_solve. passes. cbn [kb_ensures].
  assert (Hpre : kpre false (KCopy2 X B) m).
  { pre. }
  split; [exact Hpre|]. split; [apply copy2_post_exists with (rev := false); auto|].
  intros m1 [H1 H2]. specialize (H1 _ HB).
  apply kb_trsm_ok with (a := a) (b := b); auto; try congruence.
  { eapply alloc_of_changes; eauto. }
  intros m' x K1 K2 K3. split; [exists x; auto|]. intros c Hc. rewrite K2, H2; auto.
Qed.

(** The n x 1 view of a vector *)
Definition as_col (x : vec O) : mat O := Mat (vbase x) (vext x) 1 LLeft ADefault.
Lemma as_col_cells : forall (x : vec O) c, plain_v x -> mcells (as_col x) c <-> vcells x c.
Proof.
  intros x c [_ Hx]. unfold mcells, mcells_on, as_col, maddr, vcells, vaddr; simpl. split.
  - intros (i & j & Hi & Hj & _ & ->). exists i. split; auto. rewrite Hx by auto. assert (j = 0) by lia. subst. lia.
  - intros (i & Hi & ->). exists i, 0. repeat split; auto. rewrite Hx by auto. lia.
Qed.
Lemma as_col_holds : forall (m : mem O) x f, plain_v x -> vec_holds m x f -> mat_holds m (as_col x) (fun i _ => f i).
Proof.
  intros m x f [Ha Hx] H i j Hi Hj _. simpl in Hi, Hj. assert (j = 0) by lia. subst. destruct (H i Hi) as (v & Hv & E). exists v.
  rewrite Ha in E. split; auto. unfold maddr, vaddr in *; simpl. rewrite Hx in Hv by auto. rewrite <- Hv. f_equal. lia.
Qed.
Lemma as_col_holds_back : forall (m : mem O) x f, plain_v x -> mat_holds m (as_col x) f -> vec_holds m x (fun i => f i 0).
Proof.
  intros m x f [Ha Hx] H i Hi. destruct (H i 0 Hi (Nat.lt_0_succ 0) I) as (v & Hv & E). exists v.
  rewrite Ha. split; auto. unfold maddr, vaddr in *; simpl in *. rewrite Hx by auto. rewrite <- Hv. f_equal. lia.
Qed.
Lemma kb_trsv_ok : forall (m : mem O) A t d b x a g, ring_laws O -> div_laws O -> fits U64 (ext0 A) ->
  plain_m A -> plain_v b -> plain_v x -> ext0 A = ext1 A -> ext1 A = vext b -> ext0 A = vext x ->
  mat_holds_on m A (stored t d) a -> vec_holds m b g -> allocated m (vcells x) ->
  disjoint (mcells_on A (stored t d)) (vcells x) -> disjoint_or_aligned_v b x ->
  (d = Explicit -> forall i, i < ext0 A -> a i i <> zero) ->
  kb_ensures false (kb_triangular_matrix_vector_solve A t d b x) m (fun m' =>
    (exists f, vec_holds m' x f /\ forall i, i < ext0 A -> bigsum (ext0 A) (fun j => tri_of t d a i j * f j) = g i)
    /\ changes_only m m' (vcells x)).
Proof.
  intros m A t d b x a g L D' Hf PA Pb Px E1 E2 E3 HA Hb Hx D1 D2 Hnz.
  unfold kb_triangular_matrix_vector_solve. passes. cbn [kb_ensures].
  assert (Hpre : kpre false (KCopy1 (view_v x) (view_v b)) m).
  { pre. }
  split; [exact Hpre|]. split; [apply copy1_post_exists with (rev := false); auto|].
  intros m1 [H1 H2]. specialize (H1 g (view_v_holds Pb Hb)).
  apply view_v_holds_back in H1; auto. apply view_v_changes in H2; auto.
  fold (as_col x).
  apply kb_trsm_ok with (a := a) (b := fun i _ => g i); auto; try congruence.
  { split; auto. }
  { intros i j Hi Hj HP. destruct (HA i j Hi Hj HP) as (v & Hv & E). exists v. split; auto.
    rewrite H2; auto. intros K. apply (D1 (maddr A i j)); auto. exists i, j; auto. }
  { apply as_col_holds; auto. }
  { intros c K1 K2. apply (D1 c); auto. apply as_col_cells; auto. }
  intros m' y K1 K2 K3. split.
  - exists (fun i => y i 0). split; [apply as_col_holds_back; auto|]. intros i Hi. apply (K3 i 0); simpl; lia.
  - intros c Hc. rewrite K2, H2; auto. intros K. apply Hc. apply as_col_cells; auto.
Qed.

(** * Triangular products: correct if "L" and "U" are exchanged *)
Lemma kb_trmm_ok : forall s (m : mem O) A t X a b (Q : mem O -> Prop), ring_laws O ->
  plain_m A -> plain_m X -> ext0 A = ext1 A -> (match s with SideL => ext0 X | SideR => ext1 X end) = ext0 A ->
  mat_holds_on m A (in_tri t) a -> mat_holds m X b -> disjoint (mcells_on A (in_tri t)) (mcells X) ->
  (forall m', changes_only m m' (mcells X) ->
    mat_holds m' X (fun i j =>
      match s with SideL => bigsum (ext0 A) (fun k => tri_of t Explicit a i k * b k j)
                 | SideR => bigsum (ext0 A) (fun k => b i k * tri_of t Explicit a k j) end) -> Q m') ->
  kb_ensures true (kb_trmm s t A X) m Q.
Proof.
  intros s m A t X a b Q L PA PX E1 E2 HA HX D HQ. unfold kb_trmm. cbn [kb_ensures].
  assert (HA' : mat_holds_on m A (stored t Explicit) a). { intros i j Hi Hj [HP _]. auto. }
  assert (Hpre : kpre true (KTrmm s (match t with Lower => UploU | Upper => UploL end) ArgN DiagN one A X) m).
  { cbn [kpre]. rewrite uplo_lit_rev. unfold tri_pre. conjs; auto; try apply PA; try apply (plain_m_writable PX); try (eapply holds_alloc_m; eauto; fail).
    intros c (i & j & Hi & Hj & [HP _] & E) K. apply (D c); auto. exists i, j; auto. }
  split; [exact Hpre|]. split; [apply trmm_post_exists with (rev := true); auto|].
  intros m' [H1 H2]. rewrite uplo_lit_rev in H1. specialize (H1 a b HA' HX).
  apply HQ; auto. eapply mat_holds_ext; [exact H1|]. intros i j _ _. cbv beta. rewrite (mul_1_l L). destruct s; auto.
Qed.
Lemma kb_left_product_ok : forall (m : mem O) A t B C a b, ring_laws O ->
  plain_m A -> plain_m B -> plain_m C -> ext0 A = ext1 A -> ext1 A = ext0 B -> ext0 A = ext0 C -> ext1 B = ext1 C ->
  mat_holds_on m A (in_tri t) a -> mat_holds m B b -> allocated m (mcells C) ->
  disjoint (mcells_on A (in_tri t)) (mcells C) -> disjoint_or_aligned_m B C ->
  kb_ensures true (kb_triangular_matrix_left_product A t B C) m (fun m' =>
    mat_holds m' C (fun i j => bigsum (ext0 A) (fun k => tri_of t Explicit a i k * b k j)) /\ changes_only m m' (mcells C)).
Proof.
  intros m A t B C a b L PA PB PC E1 E2 E3 E4 HA HB HC D1 D2. unfold kb_triangular_matrix_left_product, kcheck_left. passes. cbn [kb_ensures].
  assert (Hpre : kpre true (KCopy2 C B) m).
  { pre. }
  split; [exact Hpre|]. split; [apply copy2_post_exists with (rev := true); auto|].
  intros m1 [H1 H2]. specialize (H1 _ HB).
  apply kb_trmm_ok with (a := a) (b := b); auto; try congruence.
  { eapply alloc_of_changes; eauto. }
  intros m' K1 K2. split; auto. intros c Hc. rewrite K1, H2; auto.
Qed.
Lemma kb_right_product_ok : forall (m : mem O) A t B C a b, ring_laws O ->
  plain_m A -> plain_m B -> plain_m C -> ext0 A = ext1 A -> ext1 B = ext0 A -> ext0 B = ext0 C -> ext1 A = ext1 C ->
  mat_holds_on m A (in_tri t) a -> mat_holds m B b -> allocated m (mcells C) ->
  disjoint (mcells_on A (in_tri t)) (mcells C) -> disjoint_or_aligned_m B C ->
  kb_ensures true (kb_triangular_matrix_right_product A t B C) m (fun m' =>
    mat_holds m' C (fun i j => bigsum (ext0 A) (fun k => b i k * tri_of t Explicit a k j)) /\ changes_only m m' (mcells C)).
Proof.
  intros m A t B C a b L PA PB PC E1 E2 E3 E4 HA HB HC D1 D2. unfold kb_triangular_matrix_right_product, kcheck_right. passes. cbn [kb_ensures].
  assert (Hpre : kpre true (KCopy2 C B) m).
  { pre. }
  split; [exact Hpre|]. split; [apply copy2_post_exists with (rev := true); auto|].
  intros m1 [H1 H2]. specialize (H1 _ HB).
  apply kb_trmm_ok with (a := a) (b := b); auto; try congruence.
  { eapply alloc_of_changes; eauto. }
  intros m' K1 K2. split; auto. intros c Hc. rewrite K1, H2; auto.
Qed.
Lemma kb_left_product_inplace_ok : forall (m : mem O) A t C a c, ring_laws O ->
  plain_m A -> plain_m C -> ext0 A = ext1 A -> ext0 A = ext0 C ->
  mat_holds_on m A (in_tri t) a -> mat_holds m C c -> disjoint (mcells_on A (in_tri t)) (mcells C) ->
  kb_ensures true (kb_triangular_matrix_left_product_inplace A t C) m (fun m' =>
    mat_holds m' C (fun i j => bigsum (ext0 A) (fun k => tri_of t Explicit a i k * c k j)) /\ changes_only m m' (mcells C)).
Proof.
  intros m A t C a c L PA PC E1 E2 HA HC D. unfold kb_triangular_matrix_left_product_inplace, kcheck_left. passes.
  apply kb_trmm_ok with (a := a) (b := c); auto.
Qed.
Lemma kb_right_product_inplace_ok : forall (m : mem O) A t C a c, ring_laws O ->
  plain_m A -> plain_m C -> ext0 A = ext1 A -> ext1 C = ext0 A ->
  mat_holds_on m A (in_tri t) a -> mat_holds m C c -> disjoint (mcells_on A (in_tri t)) (mcells C) ->
  kb_ensures true (kb_triangular_matrix_right_product_inplace A t C) m (fun m' =>
    mat_holds m' C (fun i j => bigsum (ext0 A) (fun k => c i k * tri_of t Explicit a k j)) /\ changes_only m m' (mcells C)).
Proof.
  intros m A t C a c L PA PC E1 E2 HA HC D. unfold kb_triangular_matrix_right_product_inplace, kcheck_right. passes.
  apply kb_trmm_ok with (a := a) (b := c); auto.
Qed.

(** * Returned values *)
Lemma kb_dot_conj_ok : forall (M : Type) (mag : O -> M) ltb (m : mem O) x y f g init, add_laws O ->
  plain_v (O := O) (Vec (vbase x) (vext x) (voff x) ADefault) -> plain_v y -> vacc x = AConj ADefault ->
  vext x = vext y -> vec_holds m x f -> vec_holds m y g ->
  kb_returns mag ltb (kb_dot_conj x y init) m (fun r => r = init + bigsum (vext x) (fun k => f k * g k)).
Proof.
  intros M mag ltb m x y f g init L Px Py Ax E Hx Hy. unfold kb_dot_conj. rewrite E, Nat.eqb_refl. simpl. split; auto.
  assert (Hx' : vec_holds m (view_v x) (vval m x) /\ forall k, k < vext x -> conj (vval m x k) = f k).
  { split; intros i Hi; simpl in Hi; unfold vval; destruct (Hx i Hi) as (v & Hv & Ev); rewrite Ax in Ev; simpl in Ev; rewrite Hv; auto.
    exists v. split; auto. destruct Px as [_ Px]. simpl in Px. unfold vaddr, view_v in *; simpl. rewrite Px in Hv; auto. }
  destruct Hx' as [Hx1 Hx2].
  assert (Hy' : vec_holds m (view_v y) g) by (apply view_v_holds; auto).
  assert (Heq : forall r, dot_post m (view_v x) (view_v y) r -> r = bigsum (vext x) (fun k => f k * g k)).
  { intros r Hr. rewrite (Hr _ _ Hx1 Hy'). simpl. unfold bigsum; apply sum_from_ext. intros k Hk. rewrite Hx2 by lia. auto. }
  split.
  - exists (bigsum (vext x) (fun k => f k * g k)). intros f2 g2 H1 H2. simpl. unfold bigsum; apply sum_from_ext. intros k Hk.
    destruct (H1 k ltac:(simpl; lia)) as (v & Hv & Ev). destruct (H2 k ltac:(simpl; lia)) as (w & Hw & Ew).
    destruct (Hx1 k ltac:(simpl; lia)) as (v' & Hv' & Ev'). destruct (Hy' k ltac:(simpl; lia)) as (w' & Hw' & Ew').
    rewrite <- Hx2 by lia. simpl in *. congruence.
  - intros r Hr. rewrite (Heq r Hr), E. apply (add_comm L).
Qed.

Lemma kb_idx_abs_max_ok : forall (M : Type) (mag : O -> M) (ltb : M -> M -> bool) size_max (m : mem O) v f,
  plain_v v ->
  (forall i, i < vext v -> ltb (mag (f i)) (mag (f i)) = false) ->
  (forall i j k, i < vext v -> j < vext v -> k < vext v ->
     ltb (mag (f i)) (mag (f j)) = true -> ltb (mag (f j)) (mag (f k)) = true -> ltb (mag (f i)) (mag (f k)) = true) ->
  (forall i j k, i < vext v -> j < vext v -> k < vext v ->
     ltb (mag (f i)) (mag (f k)) = true -> ltb (mag (f i)) (mag (f j)) = true \/ ltb (mag (f j)) (mag (f k)) = true) ->
  vec_holds m v f ->
  kb_returns mag ltb (kb_vector_idx_abs_max size_max v) m (fun r =>
    (vext v = 0 /\ r = size_max) \/
    exists k, r = N.of_nat k /\ k < vext v /\
      (forall i, i < vext v -> ltb (mag (f k)) (mag (f i)) = false) /\
      (forall i, i < k -> ltb (mag (f i)) (mag (f k)) = true)).
Proof.
  intros M mag ltb size_max m v f Hp H1 H2 H3 Hv. simpl.
  destruct (idx_abs_max_ok mag ltb size_max H1 H2 H3 Hv) as (r & m' & _ & _ & Hr).
  pose proof (view_v_holds Hp Hv) as Hv'. split.
  - destruct Hr as [[E _]|(k & _ & Hk & K1 & K2)].
    + exists 0%N. split; auto. simpl. lia.
    + exists (N.of_nat (k + 1)). split; [simpl; lia|]. intros _ g Hg. exists k. split; auto. split; [simpl; auto|].
      assert (E : forall i, i < vext v -> g i = f i).
      { intros i Hi. destruct (Hg i Hi) as (a & Ha & Ea). destruct (Hv' i Hi) as (b & Hb & Eb). simpl in *. congruence. }
      split; intros i Hi; simpl in *; rewrite !E by lia; auto.
  - intros r' [E0 E1]. simpl in *. destruct (Nat.eq_dec (vext v) 0) as [E|E].
    + left. split; auto. rewrite E0; auto.
    + right. destruct (E1 ltac:(lia) f Hv') as (k & -> & Hk & K1 & K2). exists k. split; auto.
      destruct (N.eqb_spec (N.of_nat (k + 1)) 0); lia.
Qed.

(** * Exceptions *)
Lemma kcheck_throw : forall n m (p : kprog O), kcheck n m p = KThrow <-> n <> m \/ p = KThrow.
Proof. intros n m p. unfold kcheck. destruct (Nat.eqb_spec n m); tauto. Qed.
Lemma kview_throw : forall (A : mat O) k, (forall B, k B <> KThrow) -> kview A k <> KThrow.
Proof. intros [b e0 e1 l c] k H. unfold kview; simpl. destruct l; try discriminate; auto. destruct l; try discriminate; auto. Qed.
Ltac nothrow := first [discriminate | apply kview_throw; intros ?; nothrow ].
Ltac throws := rewrite ?kcheck_throw; intuition (try congruence);
  match goal with H : ?p = KThrow |- _ => exfalso; cut (p <> KThrow); [intros K0; exact (K0 H)|clear H; nothrow] end.

Lemma kb_add_1_throws : forall x y z : vec O, kb_add_1 x y z = KThrow <-> vext x <> vext y \/ vext y <> vext z.
Proof. intros. unfold kb_add_1. throws. Qed.
Lemma kb_add_2_throws : forall x y z : mat O, kb_add_2 x y z = KThrow <->
  ext0 x <> ext0 y \/ ext0 y <> ext0 z \/ ext1 x <> ext1 y \/ ext1 y <> ext1 z.
Proof. intros. unfold kb_add_2. throws. Qed.
Lemma kb_gemv_throws : forall (A : mat O) x y, kb_matrix_vector_product A x y = KThrow <-> ext1 A <> vext x \/ ext0 A <> vext y.
Proof. intros. unfold kb_matrix_vector_product. throws. Qed.
Lemma kb_gemm_throws : forall A B C : mat O, ~ (has_transposed_layout A /\ has_transposed_layout B) ->
  (kb_matrix_product A B C = KThrow <-> ext1 A <> ext0 B \/ ext0 A <> ext0 C \/ ext1 B <> ext1 C).
Proof.
  intros A B C H. unfold kb_matrix_product. rewrite (viewable_not_both H). rewrite !kcheck_throw. intuition (try congruence).
  exfalso. match goal with H : ?p = KThrow |- _ => cut (p <> KThrow); [intros K0; exact (K0 H)|] end. do 3 (apply kview_throw; intros ?). destruct (_ && _); discriminate.
Qed.
Lemma kb_trsv_throws : forall (A : mat O) t d b x, kb_triangular_matrix_vector_solve A t d b x = KThrow <->
  ext0 A <> ext1 A \/ ext1 A <> vext b \/ ext0 A <> vext x.
Proof. intros. unfold kb_triangular_matrix_vector_solve. throws. Qed.
Lemma kb_left_solve_throws : forall (A : mat O) t d B X, kb_triangular_matrix_matrix_left_solve A t d B X = KThrow <->
  ext0 A <> ext1 A \/ ext1 A <> ext0 B \/ ext0 X <> ext0 B \/ ext1 X <> ext1 B.
Proof. intros. unfold kb_triangular_matrix_matrix_left_solve. throws. Qed.
Lemma kb_right_solve_throws : forall (A : mat O) t d B X, kb_triangular_matrix_matrix_right_solve A t d B X = KThrow <->
  ext0 A <> ext1 A \/ ext1 A <> ext1 B \/ ext0 X <> ext0 B \/ ext1 X <> ext1 B.
Proof. intros. unfold kb_triangular_matrix_matrix_right_solve. throws. Qed.
Lemma kb_left_product_throws : forall (A : mat O) t B C, kb_triangular_matrix_left_product A t B C = KThrow <->
  ext0 A <> ext1 A \/ ext1 A <> ext0 B \/ ext0 A <> ext0 C \/ ext1 B <> ext1 C.
Proof. intros. unfold kb_triangular_matrix_left_product, kcheck_left. throws. Qed.
Lemma kb_right_product_throws : forall (A : mat O) t B C, kb_triangular_matrix_right_product A t B C = KThrow <->
  ext0 A <> ext1 A \/ ext1 B <> ext0 A \/ ext0 B <> ext0 C \/ ext1 A <> ext1 C.
Proof. intros. unfold kb_triangular_matrix_right_product, kcheck_right. throws. Qed.
Lemma kb_dot_conj_throws : forall x y (init : O), kb_dot_conj x y init = KVThrow _ <-> vext x <> vext y.
Proof. intros. unfold kb_dot_conj. destruct (Nat.eqb_spec (vext x) (vext y)); split; try congruence. Qed.

(** A possible end state, for refutations *)
Lemma kb_end : forall rev c (m : mem O) Q, kb_ensures rev (KCall c KDone) m Q -> exists m', kpost rev c m m' /\ Q m'.
Proof. intros rev c m Q (_ & (m' & H) & K). exists m'. split; [exact H|exact (K m' H)]. Qed.
Lemma kb_end2 : forall rev c1 c (m : mem O) Q, kb_ensures rev (KCall c1 (KCall c KDone)) m Q ->
  exists m1 m', kpost rev c1 m m1 /\ kpost rev c m1 m' /\ Q m'.
Proof. intros rev c1 c m Q (_ & (m1 & H) & K). destruct (kb_end (K m1 H)) as (m' & H1 & H2). eauto. Qed.
Lemma kb_mono : forall rev (p : kprog O) (m : mem O) (Q Q' : mem O -> Prop), kb_ensures rev p m Q -> (forall m', Q m' -> Q' m') -> kb_ensures rev p m Q'.
Proof.
  intros rev p. induction p; intros m Q Q' H K; simpl in *; auto.
  - eapply wp_conseq; [exact H|]. auto.
  - destruct H as (H1 & H2 & H3). split; auto. split; auto. intros m' Hm'. eapply IHp; eauto.
Qed.
Lemma cell_v : forall (m : mem O) x f i, vec_holds m x f -> vacc x = ADefault -> i < vext x -> m (vaddr x i) = Some (f i).
Proof. intros m x f i H E Hi. destruct (H i Hi) as (v & Hv & Ev). rewrite E in Ev. simpl in Ev. congruence. Qed.
Lemma cell_m : forall (m : mem O) A f i j, mat_holds m A f -> macc A = ADefault -> i < ext0 A -> j < ext1 A -> m (maddr A i j) = Some (f i j).
Proof. intros m A f i j H E Hi Hj. destruct (H i j Hi Hj I) as (v & Hv & Ev). rewrite E in Ev. simpl in Ev. congruence. Qed.
End Pf.

(** Proofs for C58: algorithms applied to scaled and op views. *)
From Coq Require Import List Arith ZArith Lia Bool.
From Verif Require Import Mem Scalar View Spec SpecOp Idx Wp Loops Sums Alg Blas1 Blas2 Blas3 PfBlas1 PfView PfBlas2 PfTrsv PfRank PfBlas2b PfBlas3 PfTrsm PfBlas3b.
Set Implicit Arguments.
Local Open Scope sc_scope.

Section Pf.
Context {O : ops}.

Definition opP (o : trans) (P : nat -> nat -> Prop) (i j : nat) : Prop :=
  match o with NoTrans => P i j | _ => P j i end.

Lemma op_view_holds : forall fp fnc nc o (m : mem O) A Av P a,
  conj_ok O nc -> op_view fp fnc nc o A Av -> layout_ok (mlay A) (ext0 A) (ext1 A) ->
  mat_holds_on m A P a ->
  ext0 Av = op_rows o A /\ ext1 Av = op_cols o A /\ mat_holds_on m Av (opP o P) (op_el o a).
Proof.
  intros fp fnc nc o m A Av P a [Hcc Hnc] Hv Hok HA. destruct o; simpl in *.
  - subst; auto.
  - destruct (transposed_ext fp A Hv) as (E0 & E1 & _). repeat split; auto.
    exact (transposed_holds fp Hv Hok HA).
  - exact (conjugate_transposed_holds fp fnc Hcc Hnc Hv Hok HA).
Qed.
Lemma op_view_cells : forall fp fnc nc o (A Av : mat O) P c,
  op_view fp fnc nc o A Av -> layout_ok (mlay A) (ext0 A) (ext1 A) ->
  mcells_on Av (opP o P) c -> mcells_on A P c.
Proof.
  intros fp fnc nc o A Av P c Hv Hok. destruct o; simpl in *; [subst; auto| |].
  - destruct (transposed_ext fp A Hv) as (E0 & E1 & _). intros (j & i & Hj & Hi & HP & ->).
    rewrite E0 in Hj; rewrite E1 in Hi. exists i, j. repeat split; auto. apply (transposed_maddr fp A Hv); auto.
  - unfold conjugate_transposed in Hv. destruct (transposed fp A) as [At|] eqn:E; [|discriminate].
    inversion Hv; subst; clear Hv.
    destruct (transposed_ext fp A E) as (E0 & E1 & _). intros (j & i & Hj & Hi & HP & ->). simpl in Hj, Hi.
    rewrite E0 in Hj; rewrite E1 in Hi. exists i, j. repeat split; auto.
    change (maddr (conjugated_m fnc nc At) j i) with (maddr At j i). apply (transposed_maddr fp A E); auto.
Qed.
Lemma op_all2 : forall o i j, opP o all2 i j <-> all2 i j.
Proof. intros []; simpl; tauto. Qed.

Lemma op_view_all : forall fp fnc nc o (m : mem O) A Av a,
  conj_ok O nc -> op_view fp fnc nc o A Av -> layout_ok (mlay A) (ext0 A) (ext1 A) -> mat_holds m A a ->
  ext0 Av = op_rows o A /\ ext1 Av = op_cols o A /\ mat_holds m Av (op_el o a) /\
  (forall c, mcells Av c -> mcells A c).
Proof.
  intros fp fnc nc o m A Av a Hc Hv Hok HA.
  destruct (op_view_holds _ _ _ _ Hc Hv Hok HA) as (E0 & E1 & H). repeat split; auto.
  - intros i j Hi Hj _. apply H; auto. destruct o; exact I.
  - intros c (i & j & Hi & Hj & _ & ->). eapply op_view_cells with (P := all2); eauto.
    exists i, j. repeat split; auto. destruct o; exact I.
Qed.

Lemma gemv_op : forall fp fnc nc o (m : mem O) A Av x y alpha beta a f g,
  ring_laws O -> conj_ok O nc -> op_view fp fnc nc o A Av -> layout_ok (mlay A) (ext0 A) (ext1 A) ->
  vext x = op_cols o A -> vext y = op_rows o A ->
  mat_holds m A a -> vec_holds m x f -> vec_holds m y g -> vwritable y ->
  disjoint (mcells A) (vcells y) -> disjoint (vcells x) (vcells y) ->
  succeeds (matrix_vector_product_upd (scaled_m alpha Av) x (scaled_v beta y) y) m (fun _ m' =>
    vec_holds m' y (fun i => beta * g i + alpha * bigsum (op_cols o A) (fun j => op_el o a i j * f j)) /\
    changes_only m m' (vcells y)).
Proof.
  intros fp fnc nc o m A Av x y alpha beta a f g L Hc Hv Hok Hx Hy HA Hf Hg Hw Hd1 Hd2.
  destruct (op_view_all _ _ _ _ Hc Hv Hok HA) as (E0 & E1 & H & Hcl).
  eapply wp_conseq.
  - apply gemv_upd_ok with (a := fun i j => alpha * op_el o a i j) (f := f) (g := fun i => beta * g i); simpl; try congruence.
    + apply scaled_m_holds; auto.
    + auto.
    + apply scaled_v_holds; auto.
    + intros c (i & Hi & ->) K. destruct (Hg i Hi) as (v & Hv' & _). congruence.
    + intros c K1 K2. apply (Hd1 c); auto.
    + auto.
    + right. intros i Hi. reflexivity.
  - intros [] m' [K1 K2]. split; auto. eapply vec_holds_ext; [|exact K1]. intros i Hi. simpl.
    rewrite (sum_from_init (ring_add L)). f_equal. rewrite E1. unfold bigsum. rewrite (sum_mul_l L).
    apply sum_from_ext. intros. rewrite (mul_assoc L); auto.
Qed.

Lemma gemm_op : forall fpa fpb fnc nc oa ob (m : mem O) A Av B Bv C alpha beta a b c,
  ring_laws O -> conj_ok O nc ->
  op_view fpa fnc nc oa A Av -> op_view fpb fnc nc ob B Bv ->
  layout_ok (mlay A) (ext0 A) (ext1 A) -> layout_ok (mlay B) (ext0 B) (ext1 B) ->
  ext0 C = op_rows oa A -> op_cols oa A = op_rows ob B -> ext1 C = op_cols ob B ->
  mat_holds m A a -> mat_holds m B b -> mat_holds m C c -> mwritable C ->
  disjoint (mcells A) (mcells C) -> disjoint (mcells B) (mcells C) ->
  succeeds (matrix_product_upd (scaled_m alpha Av) Bv (scaled_m beta C) C) m (fun _ m' =>
    mat_holds m' C (fun i j => beta * c i j + alpha * bigsum (op_cols oa A) (fun k => op_el oa a i k * op_el ob b k j)) /\
    changes_only m m' (mcells C)).
Proof.
  intros fpa fpb fnc nc oa ob m A Av B Bv C alpha beta a b c L Hc HvA HvB HokA HokB H1 H2 H3 HA HB HC Hw Hd1 Hd2.
  destruct (op_view_all _ _ _ _ Hc HvA HokA HA) as (E0 & E1 & KA & HclA).
  destruct (op_view_all _ _ _ _ Hc HvB HokB HB) as (F0 & F1 & KB & HclB).
  eapply wp_conseq.
  - apply gemm_upd_ok with (a := fun i j => alpha * op_el oa a i j) (b := op_el ob b) (e := fun i j => beta * c i j); simpl; try congruence.
    + apply scaled_m_holds; auto.
    + auto.
    + apply scaled_m_holds; auto.
    + eapply mat_holds_alloc; eauto.
    + intros p K1 K2. apply (Hd1 p); auto.
    + intros p K1 K2. apply (Hd2 p); auto.
    + right. intros i j Hi Hj. reflexivity.
  - intros [] m' [K1 K2]. split; auto. eapply mat_holds_on_ext; [|exact K1]. intros i j Hi Hj _. simpl.
    rewrite (sum_from_init (ring_add L)). f_equal. rewrite E1. unfold bigsum. rewrite (sum_mul_l L).
    apply sum_from_ext. intros. rewrite (mul_assoc L); auto.
Qed.

Lemma ger_scaled : forall (m : mem O) alpha x y A a f g,
  vext x = ext0 A -> vext y = ext1 A ->
  mat_holds m A a -> vec_holds m x f -> vec_holds m y g -> mwritable A ->
  disjoint (vcells x) (mcells A) -> disjoint (vcells y) (mcells A) ->
  succeeds (matrix_rank_1_update (scaled_v alpha x) y A) m (fun _ m' =>
    mat_holds m' A (fun i j => a i j + alpha * f i * g j) /\ changes_only m m' (mcells A)).
Proof.
  intros. apply ger_ok with (f := fun i => alpha * f i); auto. apply scaled_v_holds; auto.
Qed.
Lemma gerc_scaled : forall (m : mem O) fnc nc alpha x y A a f g,
  conj_ok O nc -> vext x = ext0 A -> vext y = ext1 A ->
  mat_holds m A a -> vec_holds m x f -> vec_holds m y g -> mwritable A ->
  disjoint (vcells x) (mcells A) -> disjoint (vcells y) (mcells A) ->
  succeeds (matrix_rank_1_update_c fnc nc (scaled_v alpha x) y A) m (fun _ m' =>
    mat_holds m' A (fun i j => a i j + alpha * f i * conj (g j)) /\ changes_only m m' (mcells A)).
Proof.
  intros m fnc nc alpha x y A a f g [Hcc Hnc] **. apply gerc_ok with (f := fun i => alpha * f i); auto.
  apply scaled_v_holds; auto.
Qed.

Lemma conj_1 : ring_laws O -> conj_laws O -> conj (one : O) = one.
Proof.
  intros L K. rewrite <- (mul_1_l L (conj one)) at 1.
  rewrite <- (conj_conj K one) at 1. rewrite <- (conj_mul K). rewrite (mul_1_l L). apply (conj_conj K).
Qed.

Lemma op_tri_of : forall o t d (a : nat -> nat -> O) i j, ring_laws O -> (o = ConjTrans -> conj_laws O) ->
  tri_of (op_tri o t) d (op_el o a) i j = op_el o (tri_of t d a) i j.
Proof.
  intros o t d a i j L K. destruct o; simpl; auto.
  - unfold tri_of. rewrite (Nat.eqb_sym j i). destruct (i =? j) eqn:E.
    + apply Nat.eqb_eq in E; subst. auto.
    + destruct t; simpl; auto.
  - specialize (K eq_refl). unfold tri_of. rewrite (Nat.eqb_sym j i). destruct (i =? j) eqn:E.
    + apply Nat.eqb_eq in E; subst. destruct d; auto. symmetry. apply conj_1; auto.
    + destruct t; simpl; destruct (_ <=? _); auto; symmetry; apply conj_0; auto.
Qed.
Lemma op_stored : forall o t d i j, stored (op_tri o t) d i j <-> opP o (stored t d) i j.
Proof.
  intros o t d i j. unfold stored. destruct o; simpl; [tauto| |]; destruct t; simpl; split; intros [H1 H2]; split; auto; intros K E; apply H2; auto.
Qed.

(** op(T) x = alpha b *)
Lemma trsv_op : forall fp fnc nc o ty (m : mem O) alpha A Av t d B X a b,
  ring_laws O -> div_laws O -> conj_ok O nc -> (o = ConjTrans -> conj_laws O) ->
  op_view fp fnc nc o A Av -> layout_ok (mlay A) (ext0 A) (ext1 A) ->
  fits ty (ext0 A) -> (ext0 A = 0 -> op_tri o t = Upper -> ty <> U32) ->
  ext0 A = ext1 A -> vext B = ext0 A -> vext X = ext0 A ->
  mat_holds_on m A (stored t d) a -> vec_holds m B b -> vwritable X -> allocated m (vcells X) ->
  disjoint (mcells_on A (stored t d)) (vcells X) -> disjoint_or_aligned_v B X ->
  (d = Explicit -> forall i, i < ext0 A -> a i i <> zero) ->
  succeeds (triangular_matrix_vector_solve ty Av (op_tri o t) d (scaled_v alpha B) X) m (fun _ m' =>
    (exists f, vec_holds m' X f /\
      forall i, i < ext0 A -> bigsum (ext0 A) (fun j => op_el o (tri_of t d a) i j * f j) = alpha * b i)
    /\ changes_only m m' (vcells X)).
Proof.
  intros fp fnc nc o ty m alpha A Av t d B X a b L D Hc K Hv Hok Hf Hz Hsq HB HX HA Hb Hw Hal Hd Hda Hnz.
  destruct (op_view_holds _ _ _ _ Hc Hv Hok HA) as (E0 & E1 & HAv).
  assert (op_rows o A = ext0 A /\ op_cols o A = ext0 A) as [R1 R2] by (destruct o; simpl; auto).
  eapply wp_conseq.
  - apply (@trsv_ok O) with (a := op_el o a) (b := fun i => alpha * b i); auto; try (simpl; congruence); try (rewrite E0, R1; auto; fail).
    + intros i j Hi Hj Hst. apply HAv; auto. apply op_stored; auto.
    + apply scaled_v_holds; auto.
    + intros p (i & j & Hi & Hj & Hst & ->) K2. eapply Hd; [|exact K2].
      eapply op_view_cells with (P := stored t d); eauto. exists i, j. repeat split; auto; apply op_stored; auto.
    + apply div_ok_nonzero; auto. intros Hex i Hi. rewrite E0, R1 in Hi. specialize (Hnz Hex i Hi).
      destruct o; simpl; auto. intros E. apply Hnz. rewrite <- (conj_conj (K eq_refl) (a i i)), E.
      apply conj_0; auto.
  - intros [] m' [(f & K1 & K2) K3]. split; auto. exists f; split; auto. intros i Hi.
    rewrite <- (K2 i) by (rewrite E0, R1; auto). rewrite E0, R1. apply sum_from_ext. intros.
    rewrite op_tri_of; auto.
Qed.

(** op(T) X = alpha B *)
Lemma trsm_left_op : forall fp fnc nc o ty (m : mem O) alpha A Av t d B X a b,
  ring_laws O -> div_laws O -> conj_ok O nc -> (o = ConjTrans -> conj_laws O) ->
  op_view fp fnc nc o A Av -> layout_ok (mlay A) (ext0 A) (ext1 A) ->
  fits ty (ext0 A) -> (ext0 A = 0 -> op_tri o t = Upper -> ty <> U32) ->
  ext0 A = ext1 A -> ext0 B = ext0 A -> ext0 X = ext0 A -> ext1 X = ext1 B ->
  mat_holds_on m A (stored t d) a -> mat_holds m B b -> mwritable X -> allocated m (mcells X) ->
  disjoint (mcells_on A (stored t d)) (mcells X) -> disjoint_or_aligned_m B X ->
  (d = Explicit -> forall i, i < ext0 A -> a i i <> zero) ->
  succeeds (triangular_matrix_matrix_left_solve ty Av (op_tri o t) d (scaled_m alpha B) X) m (fun _ m' =>
    (exists x, mat_holds m' X x /\
      forall i j, i < ext0 X -> j < ext1 X ->
        bigsum (ext0 A) (fun k => op_el o (tri_of t d a) i k * x k j) = alpha * b i j)
    /\ changes_only m m' (mcells X)).
Proof.
  intros fp fnc nc o ty m alpha A Av t d B X a b L D Hc K Hv Hok Hf Hz Hsq HB HX HX1 HA Hb Hw Hal Hd Hda Hnz.
  destruct (op_view_holds _ _ _ _ Hc Hv Hok HA) as (E0 & E1 & HAv).
  assert (op_rows o A = ext0 A /\ op_cols o A = ext0 A) as [R1 R2] by (destruct o; simpl; auto).
  eapply wp_conseq.
  - apply (@trsm_left_field_ok O) with (a := op_el o a) (b := fun i j => alpha * b i j); auto; try (simpl; congruence); try (rewrite E0, R1; auto; fail).
    + intros i j Hi Hj Hst. apply HAv; auto. apply op_stored; auto.
    + apply scaled_m_holds; auto.
    + intros p (i & j & Hi & Hj & Hst & ->) K2. eapply Hd; [|exact K2].
      eapply op_view_cells with (P := stored t d); eauto. exists i, j. repeat split; auto; apply op_stored; auto.
    + intros Hex i Hi. rewrite E0, R1 in Hi. specialize (Hnz Hex i Hi).
      destruct o; simpl; auto. intros E. apply Hnz. rewrite <- (conj_conj (K eq_refl) (a i i)), E.
      apply conj_0; auto.
  - intros [] m' [(f & K1 & K2) K3]. split; auto. exists f; split; auto. intros i j Hi Hj.
    rewrite <- (K2 i j) by auto. rewrite E0, R1. apply sum_from_ext. intros.
    rewrite op_tri_of; auto.
Qed.

(** X op(T) = alpha B *)
Lemma trsm_right_op : forall fp fnc nc o ty (m : mem O) alpha A Av t d B X a b,
  ring_laws O -> div_laws O -> conj_ok O nc -> (o = ConjTrans -> conj_laws O) ->
  op_view fp fnc nc o A Av -> layout_ok (mlay A) (ext0 A) (ext1 A) ->
  (op_tri o t = Lower -> fits (make_signed ty) (ext0 A)) ->
  ext0 A = ext1 A -> ext1 B = ext0 A -> ext1 X = ext0 A -> ext0 X = ext0 B ->
  mat_holds_on m A (stored t d) a -> mat_holds m B b -> mwritable X -> allocated m (mcells X) ->
  disjoint (mcells_on A (stored t d)) (mcells X) -> disjoint_or_aligned_m B X ->
  (d = Explicit -> forall i, i < ext0 A -> a i i <> zero) ->
  succeeds (triangular_matrix_matrix_right_solve ty Av (op_tri o t) d (scaled_m alpha B) X) m (fun _ m' =>
    (exists x, mat_holds m' X x /\
      forall i j, i < ext0 X -> j < ext1 X ->
        bigsum (ext0 A) (fun k => x i k * op_el o (tri_of t d a) k j) = alpha * b i j)
    /\ changes_only m m' (mcells X)).
Proof.
  intros fp fnc nc o ty m alpha A Av t d B X a b L D Hc K Hv Hok Hf Hsq HB HX HX1 HA Hb Hw Hal Hd Hda Hnz.
  destruct (op_view_holds _ _ _ _ Hc Hv Hok HA) as (E0 & E1 & HAv).
  assert (op_rows o A = ext0 A /\ op_cols o A = ext0 A) as [R1 R2] by (destruct o; simpl; auto).
  eapply wp_conseq.
  - apply (@trsm_right_field_ok O) with (a := op_el o a) (b := fun i j => alpha * b i j); auto; try (simpl; congruence); try (rewrite E0, R1; auto; fail).
    + intros i j Hi Hj Hst. apply HAv; auto. apply op_stored; auto.
    + apply scaled_m_holds; auto.
    + intros p (i & j & Hi & Hj & Hst & ->) K2. eapply Hd; [|exact K2].
      eapply op_view_cells with (P := stored t d); eauto. exists i, j. repeat split; auto; apply op_stored; auto.
    + intros Hex i Hi. rewrite E0, R1 in Hi. specialize (Hnz Hex i Hi).
      destruct o; simpl; auto. intros E. apply Hnz. rewrite <- (conj_conj (K eq_refl) (a i i)), E.
      apply conj_0; auto.
  - intros [] m' [(f & K1 & K2) K3]. split; auto. exists f; split; auto. intros i j Hi Hj.
    rewrite <- (K2 i j) by auto. rewrite E0, R1. apply sum_from_ext. intros.
    rewrite op_tri_of; auto.
Qed.

(** y = op(T) (alpha x) *)
Lemma trmv_op : forall fp fnc nc o (m : mem O) alpha A Av t d x y a f,
  ring_laws O -> conj_ok O nc -> (o = ConjTrans -> conj_laws O) ->
  op_view fp fnc nc o A Av -> layout_ok (mlay A) (ext0 A) (ext1 A) ->
  ext0 A = ext1 A -> vext x = ext0 A -> vext y = ext0 A ->
  mat_holds_on m A (stored t d) a -> vec_holds m x f -> vwritable y -> allocated m (vcells y) ->
  disjoint (mcells_on A (stored t d)) (vcells y) -> disjoint (vcells x) (vcells y) ->
  succeeds (triangular_matrix_vector_product Av (op_tri o t) d (scaled_v alpha x) y) m (fun _ m' =>
    vec_holds m' y (fun i => bigsum (ext0 A) (fun j => op_el o (tri_of t d a) i j * (alpha * f j))) /\
    changes_only m m' (vcells y)).
Proof.
  intros fp fnc nc o m alpha A Av t d x y a f L Hc K Hv Hok Hsq Hx Hy HA Hf Hw Hal Hd Hdx.
  destruct (op_view_holds _ _ _ _ Hc Hv Hok HA) as (E0 & E1 & HAv).
  assert (op_rows o A = ext0 A /\ op_cols o A = ext0 A) as [R1 R2] by (destruct o; simpl; auto).
  eapply wp_conseq.
  - apply (@trmv_ring_ok O) with (a := op_el o a) (f := fun i => alpha * f i); auto; try (simpl; congruence).
    + intros i j Hi Hj Hst. apply HAv; auto. apply op_stored; auto.
    + apply scaled_v_holds; auto.
    + intros p (i & j & Hi & Hj & Hst & ->) K2. eapply Hd; [|exact K2].
      eapply op_view_cells with (P := stored t d); eauto. exists i, j. repeat split; auto; apply op_stored; auto.
  - intros [] m' [K1 K2]. split; auto. eapply vec_holds_ext; [|exact K1]. intros i Hi. simpl.
    rewrite E1, R2. apply sum_from_ext. intros. rewrite op_tri_of; auto.
Qed.
End Pf.

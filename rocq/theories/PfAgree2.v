(** Solves and products with transposed operands, and norms of transposed matrices. *)
From Coq Require Import List Arith ZArith Lia Bool.
From Flocq Require Import Core.Core IEEE754.BinarySingleNaN.
From Verif Require Import Ieee Mem Scalar View Spec SpecSub SpecAgree Wp Loops Sums Idx PfView Blas1 PfBlas1 Blas2 PfBlas2 PfTrsv PfRank
  Blas3 PfBlas3 PfTrsm PfBlas3b PfKK PfSub Norm PfAgree.
Import ListNotations.
Set Implicit Arguments.
Local Open Scope sc_scope.

Section Pf.
Context {O : ops}.
Notation flip := SpecAgree.flip.

Lemma diffs_ext : forall (s : O) lo n f g, (forall k, lo <= k < lo + n -> f k = g k) -> diffs s lo n f = diffs s lo n g.
Proof.
  intros s lo n f g H. unfold diffs. revert s lo H. induction n as [|n IH]; intros s lo H; simpl; auto.
  rewrite H by lia. apply IH. intros; apply H; lia.
Qed.
(** Substitution determines the unknowns. *)
Lemma subst_unique : forall divide t d n (a : nat -> nat -> O) b x y,
  (forall i, i < n -> x i = subst_value divide t d n a b x i) ->
  (forall i, i < n -> y i = subst_value divide t d n a b y i) ->
  forall i, i < n -> x i = y i.
Proof.
  intros divide t d n a b x y Hx Hy.
  assert (forall i, i < n -> (forall k, sub_lo t i <= k < sub_lo t i + sub_len t n i -> x k = y k) -> x i = y i) as St.
  { intros i Hi H. rewrite Hx, Hy by auto. unfold subst_value.
    rewrite (@diffs_ext (b i) (sub_lo t i) (sub_len t n i) (fun j => a i j * x j) (fun j => a i j * y j)); auto.
    intros k Hk. rewrite H; auto. }
  destruct t.
  - intros i. induction i as [i IH] using (well_founded_induction lt_wf). intros Hi. apply St; auto.
    intros k Hk. simpl in Hk. apply IH; lia.
  - assert (forall j i, j = (n - i)%nat -> i < n -> x i = y i) as St2; [|intros; eapply St2; eauto].
    intros j. induction j as [j IH] using (well_founded_induction lt_wf). intros i Hj Hi. apply St; auto.
    intros k Hk. simpl in Hk. apply (IH (n - k)%nat); lia.
Qed.

Lemma stored_flip : forall t d i j, stored (flip t) d j i <-> stored t d i j.
Proof. intros [] d i j; unfold stored; simpl; intuition. Qed.
Lemma subst_flip : forall t d n (a : nat -> nat -> O) b f j, mul_commutes O ->
  subst_value_r t d n a b f j = subst_value div (flip t) d n (fun i k => a k i) b f j.
Proof.
  intros t d n a b f j Hc. unfold subst_value_r, subst_value. fold (flip t).
  rewrite (@diffs_ext (b j) (sub_lo (flip t) j) (sub_len (flip t) n j) (fun k => f k * a k j) (fun k => a k j * f k)); auto.
Qed.

Lemma transposed_cells_on : forall fixp (A At : mat O) (P Q : nat -> nat -> Prop) c,
  transposed fixp A = Some At -> layout_ok (mlay A) (ext0 A) (ext1 A) -> (forall i j, Q j i <-> P i j) ->
  mcells_on At Q c <-> mcells_on A P c.
Proof.
  intros fixp A At P Q c H Hok HPQ. destruct (transposed_ext fixp A H) as (E0 & E1 & _ & _). split.
  - intros (j & i & Hj & Hi & HQ & ->). rewrite E0 in Hj; rewrite E1 in Hi. exists i, j. repeat split; auto.
    + apply HPQ; auto.
    + apply (transposed_maddr fixp A H); auto.
  - intros (i & j & Hi & Hj & HP & ->). exists j, i. rewrite E0, E1. repeat split; auto.
    + apply HPQ; auto.
    + symmetry. apply (transposed_maddr fixp A H); auto.
Qed.
Lemma transposed_aligned : forall fb fx (B X Bt Xt : mat O),
  transposed fb B = Some Bt -> transposed fx X = Some Xt ->
  layout_ok (mlay B) (ext0 B) (ext1 B) -> layout_ok (mlay X) (ext0 X) (ext1 X) ->
  ext0 X = ext0 B -> ext1 X = ext1 B ->
  disjoint_or_aligned_m B X -> disjoint_or_aligned_m Bt Xt.
Proof.
  intros fb fx B X Bt Xt HB HX LB LX E0 E1. destruct (transposed_ext _ _ HB) as (B0 & B1 & _). destruct (transposed_ext _ _ HX) as (X0 & X1 & _).
  intros [H|H]; [left|right].
  - intros c K1 K2. apply (H c); [apply (transposed_cells _ _ c HB LB)|apply (transposed_cells _ _ c HX LX)]; auto.
  - intros j i Hj Hi. rewrite (transposed_maddr _ _ HB), (transposed_maddr _ _ HX) by (auto; lia). apply H; lia.
Qed.
Lemma mat_holds_on_iff : forall (m : mem O) A (P Q : nat -> nat -> Prop) a, (forall i j, Q i j -> P i j) ->
  mat_holds_on m A P a -> mat_holds_on m A Q a.
Proof. intros m A P Q a H HA i j Hi Hj HQ. apply HA; auto. Qed.

(** X T = B is T^t X^t = B^t. *)
Lemma trsm_trans : forall fa fb fx ty ty' (m : mem O) A t d B X At Bt Xt a b,
  mul_commutes O ->
  transposed fa A = Some At -> transposed fb B = Some Bt -> transposed fx X = Some Xt ->
  layout_ok (mlay A) (ext0 A) (ext1 A) -> layout_ok (mlay B) (ext0 B) (ext1 B) -> layout_ok (mlay X) (ext0 X) (ext1 X) ->
  (t = Lower -> fits (make_signed ty) (ext0 A)) ->
  fits ty' (ext0 A) -> (ext0 A = 0 -> t = Lower -> ty' <> U32) ->
  ext0 A = ext1 A -> ext1 B = ext0 A -> ext1 X = ext0 A -> ext0 X = ext0 B ->
  mat_holds_on m A (stored t d) a -> mat_holds m B b -> mwritable X -> allocated m (mcells X) ->
  disjoint (mcells_on A (stored t d)) (mcells X) -> disjoint_or_aligned_m B X ->
  agree (triangular_matrix_matrix_right_solve ty A t d B X)
    (triangular_matrix_matrix_left_solve ty' At (flip t) d Bt Xt) m.
Proof.
  intros fa fb fx ty ty' m A t d B X At Bt Xt a b Hc TA TB TX LA LB LX Hf1 Hf2 Hu Hsq E1 E2 E3 HA HB Hw Hal Hd1 Hd2.
  destruct (transposed_ext _ _ TA) as (A0 & A1 & _). destruct (transposed_ext _ _ TB) as (B0 & B1 & _).
  destruct (transposed_ext _ _ TX) as (X0 & X1 & Xa & _).
  destruct (@trsm_right_subst O ty m A t d B X a b) as ([] & m1 & R1 & (x & Hx & Ex) & C1); auto.
  destruct (@trsm_left_subst O ty' m At (flip t) d Bt Xt (fun j i => a i j) (fun j i => b i j)) as ([] & m2 & R2 & (y & Hy & Ey) & C2); try lia.
  { rewrite A0, <- Hsq. auto. }
  { rewrite A0, <- Hsq. intros H H'. apply Hu; auto. destruct t; auto; discriminate. }
  { eapply mat_holds_on_iff; [|eapply transposed_holds with (P := stored t d); eauto]. intros i j. apply stored_flip. }
  { eapply transposed_holds with (P := all2); eauto. }
  { eapply transposed_writable with (P := all2); eauto. }
  { intros c K. apply Hal. apply (transposed_cells _ _ c TX LX); auto. }
  { intros c K1 K2. apply (Hd1 c); [apply (proj1 (@transposed_cells_on fa A At (stored t d) (stored (flip t) d) c TA LA (fun i j => stored_flip t d i j))); exact K1|
      apply (transposed_cells _ _ c TX LX); auto]. }
  { eapply transposed_aligned; [exact TB|exact TX|..]; auto; congruence. }
  exists m1, m2. split; auto. split; auto.
  assert (mat_holds m2 X (fun i j => y j i)) as Hy'.
  { eapply transposed_holds_rev; eauto. }
  assert (changes_only m m2 (mcells X)) as C2'.
  { intros c K. apply C2. intros K'. apply K. apply (transposed_cells _ _ c TX LX); auto. }
  eapply mst_same with (m := m) (P := all2) (g := x); [apply all2_dec|apply Hw|split; auto|split; auto].
  eapply mat_holds_on_ext; [|exact Hy']. intros i j Hi Hj _. cbv beta. symmetry.
  apply (@subst_unique div (flip t) d (ext0 A) (fun i k => a k i) (fun k => b i k) (fun k => x i k) (fun k => y k i)); [| |lia].
  - intros k Hk. rewrite Ex by lia. apply subst_flip; auto.
  - intros k Hk. rewrite Ey by lia. rewrite A0, <- Hsq. reflexivity.
Qed.
(** ... and so row by row a solve with the transpose. *)
Lemma trsm_rows : forall fa ty ty' (m : mem O) A t d B X At a b,
  mul_commutes O -> transposed fa A = Some At -> layout_ok (mlay A) (ext0 A) (ext1 A) ->
  (t = Lower -> fits (make_signed ty) (ext0 A)) ->
  fits ty' (ext0 A) -> (ext0 A = 0 -> t = Lower -> ty' <> U32) ->
  ext0 A = ext1 A -> ext1 B = ext0 A -> ext1 X = ext0 A -> ext0 X = ext0 B ->
  mat_holds_on m A (stored t d) a -> mat_holds m B b -> mwritable X -> allocated m (mcells X) ->
  disjoint (mcells_on A (stored t d)) (mcells X) -> disjoint (mcells B) (mcells X) ->
  agree (triangular_matrix_matrix_right_solve ty A t d B X)
    (for_range 0 (ext0 X) (fun i => triangular_matrix_vector_solve ty' At (flip t) d (row B i) (row X i))) m.
Proof.
  intros fa ty ty' m A t d B X At a b Hc TA LA Hf1 Hf2 Hu Hsq E1 E2 E3 HA HB Hw Hal Hd1 Hd2.
  destruct (transposed_ext _ _ TA) as (A0 & A1 & _).
  destruct (@trsm_right_subst O ty m A t d B X a b) as ([] & m1 & R1 & (x & Hx & Ex) & C1); auto; [left; auto|].
  eapply rows_agree with (C := X) (g := x); auto; [exists tt, m1; auto|].
  intros i m2 Hi K1 K2.
  assert (mat_holds_on m2 A (stored t d) a) as HA1 by (eapply mat_holds_frame; eauto).
  assert (mat_holds m2 B b) as HB1 by (eapply mat_holds_frame; eauto).
  eapply wp_conseq.
  { apply (@trsv_subst O ty' m2 div At (flip t) d (row B i) (row X i) (fun j i => a i j) (fun j => b i j)); simpl; try lia; auto.
    - rewrite A0, <- Hsq. auto.
    - rewrite A0, <- Hsq. intros H H'. apply Hu; auto. destruct t; auto; discriminate.
    - eapply mat_holds_on_iff; [|eapply transposed_holds with (P := stored t d); eauto]. intros k j. apply stored_flip.
    - apply row_holds; auto; lia.
    - apply row_writable; auto.
    - apply row_disjoint; auto. intros c J1 J2. apply (Hd1 c); auto. apply (proj1 (@transposed_cells_on fa A At (stored t d) (stored (flip t) d) c TA LA (fun i j => stored_flip t d i j))); exact J1.
    - left. apply row_disjoint; auto. apply disjoint_row; auto; lia. }
  intros [] m3 [(f & F1 & F2) F3]. split; auto. eapply vec_holds_ext; [|exact F1]. intros j Hj. simpl in Hj. symmetry.
  apply (@subst_unique div (flip t) d (ext0 A) (fun i k => a k i) (fun k => b i k) (fun k => x i k) f); [| |lia].
  - intros k Hk. rewrite Ex by lia. apply subst_flip; auto.
  - intros k Hk. rewrite F2 by lia. rewrite A0, <- Hsq. reflexivity.
Qed.

(** Symmetric products from the right. *)
Lemma sym_of_flip : forall t (a : nat -> nat -> O) i j, sym_of t a i j = sym_of t a j i.
Proof.
  intros t a i j. unfold sym_of, in_tri_b. destruct t.
  - destruct (Nat.leb_spec j i), (Nat.leb_spec i j); auto; try lia. replace j with i by lia; auto.
  - destruct (Nat.leb_spec j i), (Nat.leb_spec i j); auto; try lia. replace j with i by lia; auto.
Qed.
Lemma symm_trans : forall fb fc (m : mem O) B A t C Bt Ct a b,
  mul_commutes O -> transposed fb B = Some Bt -> transposed fc C = Some Ct ->
  layout_ok (mlay B) (ext0 B) (ext1 B) -> layout_ok (mlay C) (ext0 C) (ext1 C) ->
  ext0 A = ext1 A -> ext0 C = ext0 B -> ext1 B = ext0 A -> ext1 C = ext1 A ->
  mat_holds_on m A (in_tri t) a -> mat_holds m B b -> mwritable C -> allocated m (mcells C) ->
  disjoint (mcells_on A (in_tri t)) (mcells C) -> disjoint (mcells B) (mcells C) ->
  agree (symmetric_matrix_product_right B A t C) (symmetric_matrix_product_left A t Bt Ct) m.
Proof.
  intros fb fc m B A t C Bt Ct a b Hc TB TC LB LC Hsq E1 E2 E3 HA HB Hw Hal Hd1 Hd2.
  destruct (transposed_ext _ _ TB) as (B0 & B1 & _). destruct (transposed_ext _ _ TC) as (C0 & C1 & _).
  eapply agree_m with (C := C) (P := all2); [apply all2_dec|apply Hw|eapply symm_right_ok; eauto|].
  eapply wp_conseq.
  { apply symm_left_ok with (a := a) (b := fun j i => b i j); try lia; auto.
    - eapply transposed_holds with (P := all2); eauto.
    - eapply transposed_writable with (P := all2); eauto.
    - intros c K. apply Hal. apply (transposed_cells _ _ c TC LC); auto.
    - intros c K1 K2. apply (Hd1 c); auto. apply (transposed_cells _ _ c TC LC); auto.
    - intros c K1 K2. apply (Hd2 c); [apply (transposed_cells _ _ c TB LB)|apply (transposed_cells _ _ c TC LC)]; auto. }
  intros [] m' [K1 K2]. split.
  - eapply transposed_holds_rev; [exact TC|exact LC|]. eapply mat_holds_on_ext; [|exact K1].
    intros j i Hj Hi _. apply sum_from_ext. intros k Hk. cbv beta. rewrite Hc, sym_of_flip. auto.
  - intros c K. apply K2. intros K'. apply K. apply (transposed_cells _ _ c TC LC); auto.
Qed.
End Pf.

(** * Norms, in any arithmetic of magnitudes *)
Section Norms.
Context {O : ops} {F : rops} (M : mags O F).
Lemma mget_trans : forall fixp (A At : mat O) i j, transposed fixp A = Some At -> layout_ok (mlay A) (ext0 A) (ext1 A) ->
  i < ext0 A -> j < ext1 A -> mget At j i = mget A i j.
Proof.
  intros fixp A At i j H L Hi Hj. destruct (transposed_ext _ _ H) as (E0 & E1 & Ea & _). unfold mget.
  rewrite E0, E1, Ea, (transposed_maddr _ _ H) by auto. rewrite andb_comm. auto.
Qed.
Lemma norms_trans : forall fixp (A At : mat O) (init : F), transposed fixp A = Some At -> layout_ok (mlay A) (ext0 A) (ext1 A) ->
  same_effect (matrix_one_norm M At init) (matrix_inf_norm M A init) /\
  same_effect (matrix_inf_norm M At init) (matrix_one_norm M A init).
Proof.
  intros fixp A At init H L. destruct (transposed_ext _ _ H) as (E0 & E1 & _).
  unfold matrix_one_norm, matrix_inf_norm. rewrite E0, E1, (orb_comm (ext1 A =? 0)), (andb_comm (ext1 A =? 1)).
  destruct ((ext0 A =? 0) || (ext1 A =? 0)) eqn:Z; [split; apply peq_refl|].
  apply orb_false_iff in Z. destruct Z as [Z0 Z1]. apply Nat.eqb_neq in Z0, Z1.
  destruct ((ext0 A =? 1) && (ext1 A =? 1)).
  - rewrite (mget_trans fixp A H L) by lia. split; apply peq_refl.
  - split; apply peq_fold_range; intros i s Hi; apply peq_bind; try (intros; apply peq_refl);
    apply peq_fold_range; intros j s' Hj; rewrite (mget_trans fixp A H L) by lia; apply peq_refl.
Qed.
(** The norms of a matrix in terms of vector_abs_sum of its rows and columns. *)
Lemma inf_norm_rows : forall (A : mat O) (init : F), arithmetic M = true -> ext1 A <> 0 -> ~ (ext0 A = 1 /\ ext1 A = 1) ->
  same_effect (matrix_inf_norm M A init)
    (fold_range 0 (ext0 A) (fun i r => bind (vector_abs_sum M (row A i) init) (fun s => Ret (if rltb s r then r else s))) init).
Proof.
  intros A init Ha H1 Hn. unfold matrix_inf_norm.
  destruct (Nat.eqb_spec (ext0 A) 0) as [E|E]; cbn [orb].
  { rewrite E. apply peq_refl. }
  apply Nat.eqb_neq in H1. rewrite H1.
  destruct (Nat.eqb_spec (ext0 A) 1), (Nat.eqb_spec (ext1 A) 1); cbn [andb]; try (exfalso; tauto);
  (apply peq_fold_range; intros i r Hi; unfold vector_abs_sum; rewrite Ha; apply peq_bind; [|intros; apply peq_refl];
   apply peq_fold_range; intros j s Hj; rewrite mget_row by lia; apply peq_refl).
Qed.
Lemma one_norm_cols : forall (A : mat O) (init : F), arithmetic M = true -> ext0 A <> 0 -> ~ (ext0 A = 1 /\ ext1 A = 1) ->
  same_effect (matrix_one_norm M A init)
    (fold_range 0 (ext1 A) (fun j r => bind (vector_abs_sum M (col A j) init) (fun s => Ret (if rltb s r then r else s))) init).
Proof.
  intros A init Ha H1 Hn. unfold matrix_one_norm.
  apply Nat.eqb_neq in H1. rewrite H1. cbn [orb].
  destruct (Nat.eqb_spec (ext1 A) 0) as [E|E].
  { rewrite E. apply peq_refl. }
  destruct (Nat.eqb_spec (ext0 A) 1), (Nat.eqb_spec (ext1 A) 1); cbn [andb]; try (exfalso; tauto);
  (apply peq_fold_range; intros i r Hi; unfold vector_abs_sum; rewrite Ha; apply peq_bind; [|intros; apply peq_refl];
   apply peq_fold_range; intros j s Hj; rewrite mget_col by lia; apply peq_refl).
Qed.
End Norms.

(** Multiplication of IEEE numbers commutes (all NaNs are one value in the model). *)
Lemma Bmult_comm : forall prec emax (Hp : Prec_gt_0 prec) (He : Prec_lt_emax prec emax) md (x y : binary_float prec emax),
  Bmult md x y = Bmult md y x.
Proof.
  intros prec emax Hp He md x y. destruct x as [sx|sx| |sx mx ex Hx], y as [sy|sy| |sy my ey Hy]; simpl; try reflexivity;
    try (rewrite xorb_comm; reflexivity).
  apply B2SF_inj. rewrite !B2SF_SF2B. rewrite (xorb_comm sx), (Pos.mul_comm mx), (Z.add_comm ex). reflexivity.
Qed.
Lemma ieee_commutes : forall prec emax (Hp : Prec_gt_0 prec) (He : Prec_lt_emax prec emax), mul_commutes (ieee_ops prec emax Hp He).
Proof. intros prec emax Hp He x y. apply Bmult_comm. Qed.

(** Substitution in complex floating-point arithmetic. *)
From Coq Require Import List Arith ZArith Reals Lia Lra Psatz Bool.
From Flocq Require Import Core.Core IEEE754.BinarySingleNaN.
From Verif Require Import Mem Scalar View Spec SpecR SpecF SpecSub SpecC Idx Wp Loops Sums Norm Ieee IeeeC Blas1 Blas2 Blas3
  PfIeee PfApprox PfFloat2 PfSub PfComplex.
Local Open Scope R_scope.

Section ComplexSub.
Context (prec emax : Z) (Hp : Prec_gt_0 prec) (He : Prec_lt_emax prec emax).
Variables recover cdiv : cfl prec emax -> cfl prec emax -> cfl prec emax.
Hypothesis Hrec : forall x y, ~ cfin (recover x y).
Notation C := (ieee_c prec emax Hp He recover cdiv).
Notation cx := (cfl prec emax).
Notation u := (unit_roundoff prec).
Notation eta := (half_tiny prec emax).
Notation maxf := (max_finite prec emax).
Implicit Types (r s x y : cx) (E : nat) (D : R).
Notation capp := (capp prec emax).

Lemma capp_minus : forall E ok1 xr1 xi1 Mr1 Mi1 D1 r1 ok2 xr2 xi2 Mr2 Mi2 D2 r2,
  capp E ok1 xr1 xi1 Mr1 Mi1 D1 r1 -> capp E ok2 xr2 xi2 Mr2 Mi2 D2 r2 ->
  capp (E + 1) (ok1 /\ ok2) (xr1 - xr2) (xi1 - xi2) (Mr1 + Mr2) (Mi1 + Mi2) (D1 + D2) (@sub C r1 r2).
Proof.
  intros E ok1 xr1 xi1 Mr1 Mi1 D1 r1 ok2 xr2 xi2 Mr2 Mi2 D2 r2 HA1 HA2.
  destruct (capp_M _ _ _ _ _ _ _ _ _ _ HA1) as [Q1 Q2], (capp_M _ _ _ _ _ _ _ _ _ _ HA2) as [Q3 Q4].
  destruct HA1 as [[H1 N1] B1 B1' C1], HA2 as [[H2 N2] B2 B2' C2].
  change (@sub C r1 r2) with (csub prec emax Hp He r1 r2).
  constructor; try lra; try (unfold Rminus; eapply Rle_trans; [apply Rabs_triang|]; rewrite Rabs_Ropp; lra). split.
  - intros [Fr Fi]. cbn [csub fst snd] in Fr, Fi.
    destruct (Bminus_fin prec emax Hp He _ _ Fr) as (F1 & F2 & _).
    destruct (Bminus_fin prec emax Hp He _ _ Fi) as (F3 & F4 & _).
    destruct (H1 (Logic.conj F1 F3)) as (K1 & K2 & K3), (H2 (Logic.conj F2 F4)) as (L1 & L2 & L3).
    split; auto. split; apply (near_minus prec emax Hp He); auto.
  - intros [O1 O2] HB1 HB2. pose proof (pow_mono prec E (E + 1) ltac:(lia)) as P. pose proof (W_nonneg prec E) as P0.
    assert (P1 : (1 + u) ^ E * (Mr1 + Mr2) + (1 + u) ^ E * (D1 + D2) <= maxf).
    { eapply Rle_trans; [|exact HB1]. apply Rplus_le_compat; apply Rmult_le_compat_r; lra. }
    assert (P2 : (1 + u) ^ E * (Mi1 + Mi2) + (1 + u) ^ E * (D1 + D2) <= maxf).
    { eapply Rle_trans; [|exact HB2]. apply Rplus_le_compat; apply Rmult_le_compat_r; lra. }
    assert (0 <= (1 + u) ^ E * Mr1 /\ 0 <= (1 + u) ^ E * Mr2 /\ 0 <= (1 + u) ^ E * Mi1 /\ 0 <= (1 + u) ^ E * Mi2 /\ 0 <= (1 + u) ^ E * D1 /\ 0 <= (1 + u) ^ E * D2)
      by (repeat split; apply Rmult_le_pos; lra).
    assert (F1 : cfin r1) by (apply N1; auto; lra).
    assert (F2 : cfin r2) by (apply N2; auto; lra).
    destruct (H1 F1) as (_ & K2 & K3), (H2 F2) as (_ & L2 & L3). destruct F1, F2.
    split; cbn [csub fst snd].
    + eapply (no_minus prec emax Hp He); [exact K2|exact L2|auto..].
    + eapply (no_minus prec emax Hp He); [exact K3|exact L3|auto..].
Qed.
Lemma cdiffs_S : forall (s : C) lo n f, @diffs C s lo (S n) f = @sub C (@diffs C s lo n f) (f (lo + n)%nat).
Proof. intros; unfold diffs. rewrite seq_S, fold_left_app; reflexivity. Qed.

Lemma capp_diffs : forall n s lo (f g : nat -> cx),
  capp (2 + n) (cfin s /\ forall k, (k < n)%nat -> cfin (f (lo + k)%nat) /\ cfin (g (lo + k)%nat))
    (rpart s - rsum n (fun k => prod_re (f (lo + k)%nat) (g (lo + k)%nat)))
    (ipart s - rsum n (fun k => prod_im (f (lo + k)%nat) (g (lo + k)%nat)))
    (Rabs (rpart s) + rsum n (fun k => mag_re (f (lo + k)%nat) (g (lo + k)%nat)))
    (Rabs (ipart s) + rsum n (fun k => mag_im (f (lo + k)%nat) (g (lo + k)%nat)))
    (rsum n (fun _ => 2 * eta)) (@diffs C s lo n (fun k => @mul C (f k) (g k))).
Proof.
  intros n s lo f g. induction n as [|n IH].
  - simpl rsum. rewrite !Rplus_0_r, !Rminus_0_r. change (@diffs C s lo 0 _) with s.
    eapply (capp_iff prec emax cdiv); [eapply capp_weaken; [apply capp_exact|lia|lra]|].
    split; [intros; split; auto; intros; lia|tauto].
  - rewrite cdiffs_S.
    pose proof (capp_minus _ _ _ _ _ _ _ _ _ _ _ _ _ _ _ IH
      (capp_weaken _ _ _ (2 + n) _ _ _ _ _ _ _ _ (capp_prod prec emax Hp He recover cdiv Hrec (f (lo + n)%nat) (g (lo + n)%nat)) ltac:(lia) (Rle_refl _))) as K.
    cbn [rsum]. replace (2 + Datatypes.S n)%nat with (2 + n + 1)%nat by lia. rewrite <- !Rplus_assoc.
    match goal with |- PfComplex.capp _ _ _ _ (?p - (?q + ?z)) (?p' - (?q' + ?z')) _ _ _ _ =>
      replace (p - (q + z)) with (p - q - z) by ring; replace (p' - (q' + z')) with (p' - q' - z') by ring end.
    eapply (capp_iff prec emax cdiv); [exact K|]. split.
    + intros ((K1 & K2) & K3). split; auto. intros k Hk. destruct (Nat.eq_dec k n) as [->|]; auto. apply K2; lia.
    + intros (K1 & K2). split; [split|]; auto.
Qed.
Lemma caccurate_diffs : forall n s lo (f g : nat -> cx),
  caccurate_diff (n + 2) lo n s f g (@diffs C s lo n (fun k => @mul C (f k) (g k))).
Proof.
  intros. unfold caccurate_diff. eapply cap_spec. rewrite Nat.add_comm. rewrite <- (rsum_const n (2 * eta)).
  eapply (capp_iff prec emax cdiv); [apply capp_diffs|].
  rewrite (all_cfin_iff prec emax n (fun k => f (lo + k)%nat) (fun k => g (lo + k)%nat)). tauto.
Qed.
Local Open Scope nat_scope.
Lemma trsv_complex : forall ty (m : mem C) A t d B X a b,
  fits ty (ext0 A) -> (ext0 A = 0 -> t = Upper -> ty <> U32) ->
  ext0 A = ext1 A -> vext B = ext0 A -> vext X = ext0 A ->
  mat_holds_on m A (stored t d) a -> vec_holds m B b -> vwritable X -> allocated m (vcells X) ->
  disjoint (mcells_on A (stored t d)) (vcells X) -> disjoint_or_aligned_v B X ->
  succeeds (triangular_matrix_vector_solve ty A t d B X) m (fun _ m' =>
    (exists x : nat -> C, vec_holds m' X x /\ forall i, i < ext0 A -> csolves_row cdiv t d (ext0 A) a b x i)
    /\ changes_only m m' (vcells X)).
Proof.
  intros ty m A t d B X a b H1 H2 H3 H4 H5 H6 H7 H8 H9 H10 H11.
  eapply wp_conseq; [apply (@trsv_subst C) with (a := a) (b := b); eauto|]. intros [] m' [(f & K1 & K2) K3]. split; auto.
  exists f; split; auto. intros i Hi. eexists; split; [apply (caccurate_diffs (sub_len t (ext0 A) i) (b i) (sub_lo t i) (a i) f)|].
  rewrite (K2 i Hi) at 1. unfold subst_value. destruct d; reflexivity.
Qed.
Lemma trsm_left_complex : forall ty (m : mem C) A t d B X a b,
  fits ty (ext0 A) -> (ext0 A = 0 -> t = Upper -> ty <> U32) ->
  ext0 A = ext1 A -> ext0 B = ext0 A -> ext0 X = ext0 A -> ext1 X = ext1 B ->
  mat_holds_on m A (stored t d) a -> mat_holds m B b -> mwritable X -> allocated m (mcells X) ->
  disjoint (mcells_on A (stored t d)) (mcells X) -> disjoint_or_aligned_m B X ->
  succeeds (triangular_matrix_matrix_left_solve ty A t d B X) m (fun _ m' =>
    (exists x : nat -> nat -> C, mat_holds m' X x /\ forall i j, i < ext0 X -> j < ext1 X ->
       csolves_row cdiv t d (ext0 A) a (fun k => b k j) (fun k => x k j) i)
    /\ changes_only m m' (mcells X)).
Proof.
  intros ty m A t d B X a b H1 H2 H3 H4 H5 H5' H6 H7 H8 H9 H10 H11.
  eapply wp_conseq; [apply (@trsm_left_subst C) with (a := a) (b := b); eauto|]. intros [] m' [(x & K1 & K2) K3]. split; auto.
  exists x; split; auto. intros i j Hi Hj.
  eexists; split; [apply (caccurate_diffs (sub_len t (ext0 A) i) (b i j) (sub_lo t i) (a i) (fun k => x k j))|].
  rewrite (K2 i j Hi Hj) at 1. unfold subst_value. destruct d; reflexivity.
Qed.
Lemma trsm_right_complex : forall ty (m : mem C) A t d B X a b,
  (t = Lower -> fits (make_signed ty) (ext0 A)) ->
  ext0 A = ext1 A -> ext1 B = ext0 A -> ext1 X = ext0 A -> ext0 X = ext0 B ->
  mat_holds_on m A (stored t d) a -> mat_holds m B b -> mwritable X -> allocated m (mcells X) ->
  disjoint (mcells_on A (stored t d)) (mcells X) -> disjoint_or_aligned_m B X ->
  succeeds (triangular_matrix_matrix_right_solve ty A t d B X) m (fun _ m' =>
    (exists x : nat -> nat -> C, mat_holds m' X x /\ forall i j, i < ext0 X -> j < ext1 X ->
       csolves_col cdiv t d (ext0 A) a (fun k => b i k) (fun k => x i k) j)
    /\ changes_only m m' (mcells X)).
Proof.
  intros ty m A t d B X a b H1 H3 H4 H5 H5' H6 H7 H8 H9 H10 H11.
  eapply wp_conseq; [apply (@trsm_right_subst C) with (a := a) (b := b); eauto|]. intros [] m' [(x & K1 & K2) K3]. split; auto.
  exists x; split; auto. intros i j Hi Hj. unfold csolves_col. cbv zeta. set (t' := match t with Lower => Upper | Upper => Lower end).
  eexists; split; [apply (caccurate_diffs (sub_len t' (ext0 A) j) (b i j) (sub_lo t' j) (x i) (fun k => a k j))|].
  rewrite (K2 i j Hi Hj) at 1. unfold subst_value_r. fold t'. destruct d; reflexivity.
Qed.
End ComplexSub.

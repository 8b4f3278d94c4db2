(** vector_idx_abs_max when some magnitudes are not ordered (NaN). *)
From Coq Require Import List Arith ZArith NArith Reals Lia Lra Bool.
From Flocq Require Import Core.Core IEEE754.BinarySingleNaN.
From Verif Require Import Mem Scalar View Spec Ieee Wp Blas1 PfBlas1 PfIeeeNorm.

Section Pf.
Context {O : ops}.
Lemma idx_abs_max_first : forall (M : Type) (mag : O -> M) (ltb : M -> M -> bool) size_max (m : mem O) v f,
  vec_holds m v f -> 0 < vext v -> (forall i, i < vext v -> ltb (mag (f 0)) (mag (f i)) = false) ->
  succeeds (vector_idx_abs_max mag ltb size_max v) m (fun r m' => m' = m /\ r = 0%N).
Proof.
  intros M mag ltb size_max m v f Hv Hn H. unfold vector_idx_abs_max.
  destruct (Nat.eqb_spec (vext v) 0) as [E|E]; [lia|].
  apply wp_bind. eapply wp_vget; eauto; try lia. apply wp_bind.
  apply wp_fold_range with (I := fun i (r : nat * M) m' => m' = m /\ r = (0, mag (f 0))); try lia; auto.
  - intros i [k mv] m' Hi (-> & E'). injection E' as -> ->.
    apply wp_bind. eapply wp_vget; eauto; try lia. apply wp_ret. rewrite H by lia. auto.
  - intros [k mv] m' (-> & E'). injection E' as -> ->. apply wp_ret. auto.
Qed.
Lemma idx_abs_max_good : forall (M : Type) (mag : O -> M) (ltb : M -> M -> bool) (good : M -> bool) size_max (m : mem O) v f,
  (forall a, good a = true -> ltb a a = false) ->
  (forall a b, good a = false \/ good b = false -> ltb a b = false) ->
  (forall a b c, good a = true -> good b = true -> good c = true -> ltb a b = true -> ltb b c = true -> ltb a c = true) ->
  (forall a b c, good a = true -> good b = true -> good c = true -> ltb a c = true -> ltb a b = true \/ ltb b c = true) ->
  vec_holds m v f -> 0 < vext v -> good (mag (f 0)) = true ->
  succeeds (vector_idx_abs_max mag ltb size_max v) m (fun r m' => m' = m /\
     exists k, r = N.of_nat k /\ k < vext v /\ good (mag (f k)) = true /\
       (forall i, i < vext v -> good (mag (f i)) = true -> ltb (mag (f k)) (mag (f i)) = false) /\
       (forall i, i < k -> good (mag (f i)) = true -> ltb (mag (f i)) (mag (f k)) = true)).
Proof.
  intros M mag ltb good size_max m v f Hirr Hbad Htr Hco Hv Hn H0. unfold vector_idx_abs_max.
  destruct (Nat.eqb_spec (vext v) 0) as [E|E]; [lia|].
  apply wp_bind. eapply wp_vget; eauto; try lia. apply wp_bind.
  apply wp_fold_range with (I := fun i (r : nat * M) m' => m' = m /\ fst r < i /\ snd r = mag (f (fst r)) /\ good (snd r) = true /\
     (forall j, j < i -> good (mag (f j)) = true -> ltb (snd r) (mag (f j)) = false) /\
     (forall j, j < fst r -> good (mag (f j)) = true -> ltb (mag (f j)) (snd r) = true)); try lia.
  - simpl. repeat split; auto; try lia. intros j Hj; replace j with 0 by lia; apply Hirr.
  - intros i [k mv] m' Hi (-> & Hk & Hmv & Hg & H1 & H2). simpl in *. subst mv.
    apply wp_bind. eapply wp_vget; eauto; try lia. apply wp_ret.
    destruct (ltb (mag (f k)) (mag (f i))) eqn:El; simpl; repeat split; auto; try lia.
    + destruct (good (mag (f i))) eqn:Gi; auto. rewrite Hbad in El by auto. discriminate.
    + assert (Gi : good (mag (f i)) = true) by (destruct (good (mag (f i))) eqn:Gi; auto; rewrite Hbad in El by auto; discriminate).
      intros j Hj Gj. destruct (Nat.eq_dec j i) as [->|]; [apply Hirr; auto|].
      destruct (ltb (mag (f i)) (mag (f j))) eqn:E2; auto.
      rewrite <- (H1 j) by (auto; lia). symmetry. eapply Htr; [| | |exact El|exact E2]; auto.
    + assert (Gi : good (mag (f i)) = true) by (destruct (good (mag (f i))) eqn:Gi; auto; rewrite Hbad in El by auto; discriminate).
      intros j Hj Gj. destruct (Hco _ (mag (f j)) _ Hg Gj Gi El) as [E2|E2]; auto.
      rewrite H1 in E2; [discriminate|lia|auto].
    + intros j Hj Gj. destruct (Nat.eq_dec j i) as [->|]; auto. apply H1; auto; lia.
  - intros [k mv] m' (-> & Hk & Hmv & Hg & H1 & H2). simpl in *. apply wp_ret. split; auto.
    exists k. subst mv. repeat split; auto.
Qed.
End Pf.

Section Ieee.
Context (prec emax : Z) (Hp : Prec_gt_0 prec) (He : Prec_lt_emax prec emax).
Notation fl := (binary_float prec emax).
Local Open Scope R_scope.
(** Numbers in the order of the extended reals. *)
Definition rank (x : fl) : Z := match x with B754_infinity true => -1 | B754_infinity false => 1 | _ => 0 end.
Lemma Bltb_rank : forall x y : fl, is_nan x = false -> is_nan y = false ->
  (Bltb x y = true <-> ((rank x < rank y)%Z \/ (is_finite x = true /\ is_finite y = true /\ B2R x < B2R y))).
Proof.
  intros x y Nx Ny.
  destruct (is_finite x) eqn:Fx, (is_finite y) eqn:Fy.
  - rewrite (Bltb_R prec emax x y Fx Fy).
    assert (rank x = 0%Z) by (destruct x as [|[]| |]; try discriminate; auto).
    assert (rank y = 0%Z) by (destruct y as [|[]| |]; try discriminate; auto).
    destruct (Rlt_dec _ _); split; auto; try discriminate. intros [K|(_ & _ & K)]; [lia|contradiction].
  - destruct y as [[]|[]| |[]]; try discriminate; destruct x as [[]|[]| |[]]; try discriminate; simpl;
      (split; [intros; try discriminate; left; lia|intros [K|(_ & K & _)]; try discriminate; try lia; auto]).
  - destruct y as [[]|[]| |[]]; try discriminate; destruct x as [[]|[]| |[]]; try discriminate; simpl;
      (split; [intros; try discriminate; left; lia|intros [K|(K & _)]; try discriminate; try lia; auto]).
  - destruct y as [[]|[]| |[]]; try discriminate; destruct x as [[]|[]| |[]]; try discriminate; simpl;
      (split; [intros; try discriminate; left; lia|intros [K|(K & _)]; try discriminate; try lia; auto]).
Qed.
Lemma fin_rank : forall x : fl, is_nan x = false -> (is_finite x = true <-> rank x = 0%Z).
Proof. intros [[]|[]| |[]]; simpl; intros; split; intros; try discriminate; auto. Qed.
Lemma Bltb_irr : forall x : fl, is_nan x = false -> Bltb x x = false.
Proof.
  intros x N. destruct (Bltb x x) eqn:E; auto. apply Bltb_rank in E; auto. destruct E as [E|(_ & _ & E)]; [lia|lra].
Qed.
Lemma Bltb_bad : forall x y : fl, is_nan x = true \/ is_nan y = true -> Bltb x y = false.
Proof. intros [[]|[]| |[]] [[]|[]| |[]] [H|H]; simpl in *; try discriminate; reflexivity. Qed.
Lemma Bltb_trans : forall x y z : fl, is_nan x = false -> is_nan y = false -> is_nan z = false ->
  Bltb x y = true -> Bltb y z = true -> Bltb x z = true.
Proof.
  intros x y z Nx Ny Nz H1 H2. apply Bltb_rank in H1, H2; auto. apply Bltb_rank; auto.
  pose proof (fin_rank x Nx). pose proof (fin_rank y Ny). pose proof (fin_rank z Nz).
  destruct H1 as [H1|(A1 & A2 & A3)], H2 as [H2|(B1 & B2 & B3)].
  - left; lia.
  - left. apply H0 in B1. apply H3 in B2. lia.
  - left. apply H in A1. apply H0 in A2. lia.
  - right. repeat split; auto. lra.
Qed.
Lemma Bltb_negtrans : forall x y z : fl, is_nan x = false -> is_nan y = false -> is_nan z = false ->
  Bltb x z = true -> Bltb x y = true \/ Bltb y z = true.
Proof.
  intros x y z Nx Ny Nz H1. apply Bltb_rank in H1; auto. rewrite !Bltb_rank by auto.
  pose proof (fin_rank x Nx). pose proof (fin_rank y Ny). pose proof (fin_rank z Nz).
  destruct H1 as [H1|(A1 & A2 & A3)].
  - destruct (Z.lt_trichotomy (rank x) (rank y)) as [|[|]]; auto; right; left; lia.
  - apply H in A1. apply H2 in A2. destruct (Z.lt_trichotomy (rank x) (rank y)) as [|[E|]]; auto.
    + assert (rank y = 0%Z) as R by lia. destruct (Rlt_dec (B2R x) (B2R y)).
      * left; right. repeat split; try tauto. * right; right. repeat split; try tauto. lra.
    + right; left; lia.
Qed.
Lemma idx_abs_max_ieee : forall {O : ops} (mag : O -> fl) size_max (m : mem O) v f, vec_holds m v f -> (0 < vext v)%nat ->
  is_nan (mag (f 0%nat)) = false ->
  succeeds (vector_idx_abs_max mag (@Bltb prec emax) size_max v) m (fun r m' => m' = m /\
     exists k, r = N.of_nat k /\ (k < vext v)%nat /\ is_nan (mag (f k)) = false /\
       (forall i, (i < vext v)%nat -> is_nan (mag (f i)) = false -> Bltb (mag (f k)) (mag (f i)) = false) /\
       (forall i, (i < k)%nat -> is_nan (mag (f i)) = false -> Bltb (mag (f i)) (mag (f k)) = true)).
Proof.
  intros O mag size_max m v f Hv Hn H0.
  assert (S : forall b, negb b = true <-> b = false) by (intros []; simpl; split; auto).
  assert (S' : forall b, negb b = false <-> b = true) by (intros []; simpl; split; auto).
  eapply wp_conseq; [apply (idx_abs_max_good fl mag (@Bltb prec emax) (fun x => negb (is_nan x)) size_max m v f)|]; auto.
  - intros a. rewrite S. apply Bltb_irr.
  - intros a b. rewrite !S'. apply Bltb_bad.
  - intros a b c. rewrite !S. apply Bltb_trans.
  - intros a b c. rewrite !S. apply Bltb_negtrans.
  - rewrite S; auto.
  - intros r m' (-> & k & -> & K1 & K2 & K3 & K4). split; auto. exists k. rewrite S in K2. repeat split; auto.
    + intros i Hi N. apply K3; auto. rewrite S; auto.
    + intros i Hi N. apply K4; auto. rewrite S; auto.
Qed.
Lemma idx_abs_max_nan0 : forall {O : ops} (mag : O -> fl) size_max (m : mem O) v f, vec_holds m v f -> (0 < vext v)%nat ->
  is_nan (mag (f 0%nat)) = true ->
  succeeds (vector_idx_abs_max mag (@Bltb prec emax) size_max v) m (fun r m' => m' = m /\ r = 0%N).
Proof. intros. eapply idx_abs_max_first; eauto. intros. apply Bltb_bad; auto. Qed.
End Ieee.

(** matrix_frob_norm in exact arithmetic, and norms of transposed views. *)
From Coq Require Import List Arith Lia Bool Reals Lra Psatz.
From Verif Require Import Mem Scalar View Spec Wp Norm SpecR PfTrsv PfNorm PfView.
Import ListNotations.
Set Implicit Arguments.
Local Open Scope R_scope.

(** Sum of |a_ij|^2. *)
Definition frob2 {O dv sq} (M : mags O (exact dv sq)) r c (a : nat -> nat -> O) : R :=
  rsum r (fun i => rsum c (fun j => mag M (a i j) * mag M (a i j))).

Section Pf.
Context {O : ops} (dv : R -> R -> R) (sq : R -> R) (M : mags O (exact dv sq)).
Notation ssr := (@sum_of_squares_result (exact dv sq)).

Lemma frob2_nonneg : forall r c (a : nat -> nat -> O), 0 <= frob2 M r c a.
Proof. intros. apply rsum_nonneg. intros. apply rsum_nonneg. intros. apply Rle_0_sqr. Qed.

(** The nested loops, for a relation [Rel] between the exact sum so far and the accumulator. *)
Lemma frob_loops : forall (m : mem O) A a (Inv : nat -> nat -> R -> ssr -> Prop) init,
  mat_holds m A a ->
  Inv 0%nat 0%nat 0 init ->
  (forall i t s, (i < ext0 A)%nat -> Inv i (ext1 A) t s -> Inv (S i) 0%nat t s) ->
  (forall i j t s, (i < ext0 A)%nat -> (j < ext1 A)%nat -> Inv i j t s ->
     returns (frob_step M A i j s) m (Inv i (S j) (t + mag M (a i j) * mag M (a i j)))) ->
  returns (fold_range 0 (ext0 A) (fun i s => fold_range 0 (ext1 A) (fun j s => frob_step M A i j s) s) init) m
    (Inv (ext0 A) 0%nat (frob2 M (ext0 A) (ext1 A) a)).
Proof.
  intros m A a Inv init HA H0 Hrow Hstep. unfold frob2.
  apply returns_fold with (I := fun i (s : ssr) => Inv i 0%nat (rsum i (fun i => rsum (ext1 A) (fun j => mag M (a i j) * mag M (a i j)))) s);
    [lia|exact H0|].
  intros i s Hi HI. eapply returns_conseq.
  - apply returns_fold with (I := fun j (s : ssr) => Inv i j
      (rsum i (fun i => rsum (ext1 A) (fun j => mag M (a i j) * mag M (a i j))) + rsum j (fun j => mag M (a i j) * mag M (a i j))) s);
      [lia|simpl; rewrite Rplus_0_r; exact HI|].
    intros j s' Hj HI'. simpl. rewrite <- Rplus_assoc. apply Hstep; auto; lia.
  - intros s' Hs. simpl. apply Hrow; auto; lia.
Qed.

Lemma final_value : forall (s q t : R), 0 <= s -> 0 <= q -> s * s * q = t -> exact_sqrt sq -> s * sq q = sqrt t.
Proof.
  intros s q t Hs Hq <- Hsq. rewrite Hsq by auto. rewrite sqrt_mult_alt by apply Rle_0_sqr.
  rewrite sqrt_square; auto.
Qed.

Lemma frob_monotone_ok : forall (m : mem O) A a (init : R), exact_div dv -> exact_sqrt sq -> (forall v, 0 <= mag M v) ->
  mat_holds m A a ->
  (forall i j i' j', (i < ext0 A)%nat -> (j < ext1 A)%nat -> (i' < ext0 A)%nat -> (j' < ext1 A)%nat ->
     before i j i' j' -> mag M (a i' j') <> 0 -> mag M (a i j) <= mag M (a i' j')) ->
  returns (matrix_frob_norm M A init) m (fun r =>
    r = init + sqrt (rsum (ext0 A) (fun i => rsum (ext1 A) (fun j => mag M (a i j) * mag M (a i j))))).
Proof.
  intros m A a init Hdv Hsq H0 HA Hmon. unfold matrix_frob_norm.
  fold (frob2 M (ext0 A) (ext1 A) a).
  destruct (Nat.eqb_spec (ext0 A) 0) as [E|E]; simpl.
  { apply returns_ret. unfold frob2. rewrite E. simpl. rewrite sqrt_0. lra. }
  destruct (Nat.eqb_spec (ext1 A) 0) as [E1|E1]; simpl.
  { apply returns_ret. unfold frob2. rewrite E1. simpl.
    replace (rsum (ext0 A) (fun _ => 0)) with 0; [rewrite sqrt_0; lra|].
    clear. induction (ext0 A) as [|n IH]; simpl; auto. rewrite <- IH; lra. }
  destruct ((ext0 A =? 1)%nat && (ext1 A =? 1)%nat) eqn:E2.
  { apply andb_prop in E2. destruct E2 as [E2 E3]. apply Nat.eqb_eq in E2, E3. rget. apply returns_ret.
    unfold frob2. rewrite E2, E3. simpl. fold (mag M (a 0 0)%nat). f_equal.
    rewrite !Rplus_0_l. rewrite sqrt_square; auto. }
  eapply returns_bind.
  - apply frob_loops with (a := a) (Inv := fun i j t (s : ssr) =>
      0 <= scaling_factor s /\ 0 <= scaled_sum_of_squares s /\
      scaling_factor s * scaling_factor s * scaled_sum_of_squares s = t /\
      (scaling_factor s = 0 \/ exists i0 j0, (i0 < ext0 A)%nat /\ (j0 < ext1 A)%nat /\ before i0 j0 i j /\ scaling_factor s = mag M (a i0 j0))); auto.
    + simpl. split; [lra|]. split; [lra|]. split; [lra|]. auto.
    + intros i t s Hi (K1 & K2 & K3 & K4). split; auto. split; auto. split; auto.
      destruct K4 as [K4|(i0 & j0 & Hi0 & Hj0 & Hb & Ks)]; auto.
      right. exists i0, j0. split; auto. split; auto. split; auto. unfold before in *. lia.
    + intros i j t [s q] Hi Hj (K1 & K2 & K3 & K4). simpl scaling_factor in *. simpl scaled_sum_of_squares in *.
      unfold frob_step. rget. simpl. fold (mag M (a i j)). pose proof (H0 (a i j)) as Hp.
      destruct (Req_EM_T (mag M (a i j)) 0) as [Ez|Ez].
      { apply returns_ret. simpl. rewrite Ez. repeat split; auto; [lra|].
        destruct K4 as [K4|(i0 & j0 & Hi0 & Hj0 & Hb & Ks)]; auto.
        right. exists i0, j0. repeat split; auto. unfold before in *. lia. }
      destruct (Rlt_dec s (mag M (a i j))) as [Hlt|Hlt]; apply returns_ret; simpl; rewrite Hdv by auto.
      * repeat split; auto.
        -- pose proof (Rle_0_sqr (s / mag M (a i j))). unfold Rsqr in *. nra.
        -- rewrite <- K3. field; auto.
        -- right. exists i, j. repeat split; auto. unfold before; lia.
      * assert (s = mag M (a i j)) as Es.
        { destruct K4 as [K4|(i0 & j0 & Hi0 & Hj0 & Hb & Ks)]; [lra|].
          pose proof (Hmon i0 j0 i j Hi0 Hj0 Hi Hj Hb Ez). lra. }
        repeat split; auto.
        -- pose proof (Rle_0_sqr (s / mag M (a i j))). unfold Rsqr in *. nra.
        -- rewrite <- K3, Es. field; auto.
        -- right. exists i, j. repeat split; auto. unfold before; lia.
  - intros s (K1 & K2 & K3 & _). apply returns_ret. simpl. f_equal. apply final_value; auto.
Qed.

(** In every case the result is at least the Frobenius norm. *)
Lemma frob_lower_bound : forall (m : mem O) A a (init : R), exact_div dv -> exact_sqrt sq -> (forall v, 0 <= mag M v) ->
  mat_holds m A a ->
  returns (matrix_frob_norm M A init) m (fun r =>
    init + sqrt (rsum (ext0 A) (fun i => rsum (ext1 A) (fun j => mag M (a i j) * mag M (a i j)))) <= r).
Proof.
  intros m A a init Hdv Hsq H0 HA. unfold matrix_frob_norm.
  fold (frob2 M (ext0 A) (ext1 A) a).
  destruct (Nat.eqb_spec (ext0 A) 0) as [E|E]; simpl.
  { apply returns_ret. unfold frob2. rewrite E. simpl. rewrite sqrt_0. lra. }
  destruct (Nat.eqb_spec (ext1 A) 0) as [E1|E1]; simpl.
  { apply returns_ret. unfold frob2. rewrite E1. simpl.
    replace (rsum (ext0 A) (fun _ => 0)) with 0; [rewrite sqrt_0; lra|].
    clear. induction (ext0 A) as [|n IH]; simpl; auto. rewrite <- IH; lra. }
  destruct ((ext0 A =? 1)%nat && (ext1 A =? 1)%nat) eqn:E2.
  { apply andb_prop in E2. destruct E2 as [E2 E3]. apply Nat.eqb_eq in E2, E3. rget. apply returns_ret.
    unfold frob2. rewrite E2, E3. simpl. fold (mag M (a 0 0)%nat).
    rewrite !Rplus_0_l. rewrite sqrt_square; auto. lra. }
  eapply returns_bind.
  - apply frob_loops with (a := a) (Inv := fun i j t (s : ssr) =>
      0 <= scaling_factor s /\ 0 <= scaled_sum_of_squares s /\
      t <= scaling_factor s * scaling_factor s * scaled_sum_of_squares s); auto.
    + simpl. lra.
    + intros i j t [s q] Hi Hj (K1 & K2 & K3). simpl scaling_factor in *. simpl scaled_sum_of_squares in *.
      unfold frob_step. rget. simpl. fold (mag M (a i j)). pose proof (H0 (a i j)) as Hp.
      destruct (Req_EM_T (mag M (a i j)) 0) as [Ez|Ez].
      { apply returns_ret. simpl. rewrite Ez. repeat split; auto; lra. }
      destruct (Rlt_dec s (mag M (a i j))) as [Hlt|Hlt]; apply returns_ret; simpl; rewrite Hdv by auto.
      * pose proof (Rle_0_sqr (s / mag M (a i j))) as Hq2. unfold Rsqr in Hq2. repeat split; auto; [nra|].
        replace (mag M (a i j) * mag M (a i j) * (1 + q * (s / mag M (a i j)) * (s / mag M (a i j))))
          with (mag M (a i j) * mag M (a i j) + s * s * q) by (field; auto). lra.
      * assert (1 <= s / mag M (a i j)) as Hq.
        { apply Rmult_le_reg_r with (mag M (a i j)); [lra|]. unfold Rdiv. rewrite Rmult_assoc, Rinv_l by auto. lra. }
        set (d := s / mag M (a i j)) in *. assert (1 <= d * d) by nra. repeat split; auto; [nra|].
        assert (mag M (a i j) * mag M (a i j) <= s * s) by nra. nra.
  - intros s (K1 & K2 & K3). apply returns_ret. simpl. apply Rplus_le_compat_l.
    rewrite (@final_value _ _ _ K1 K2 eq_refl Hsq). apply sqrt_le_1; auto; [apply frob2_nonneg|].
    eapply Rle_trans; [apply frob2_nonneg|exact K3].
Qed.

(** * Transposed views *)
Lemma one_inf_transposed : forall fixp (m : mem O) A At a (init : R), (forall v, 0 <= mag M v) ->
  transposed fixp A = Some At -> layout_ok (mlay A) (ext0 A) (ext1 A) -> mat_holds m A a ->
  run (matrix_one_norm M A init) m = run (matrix_inf_norm M At init) m /\
  run (matrix_inf_norm M A init) m = run (matrix_one_norm M At init) m.
Proof.
  intros fixp m A At a init H0 Ht Hok HA.
  destruct (transposed_ext _ _ Ht) as (E0 & E1 & _ & _).
  assert (mat_holds m At (fun j i => a i j)) as HAt by (eapply transposed_holds with (P := all2); eauto).
  destruct (@one_norm_ok O dv sq M m A a init H0 HA) as (r1 & R1 & ->).
  destruct (@inf_norm_ok O dv sq M m At _ init H0 HAt) as (r2 & R2 & ->).
  destruct (@inf_norm_ok O dv sq M m A a init H0 HA) as (r3 & R3 & ->).
  destruct (@one_norm_ok O dv sq M m At _ init H0 HAt) as (r4 & R4 & ->).
  rewrite R1, R2, R3, R4, E0, E1. auto.
Qed.
(** The overloads without init. *)
Lemma abs_sum_noinit_ok : forall (m : mem O) v f, vec_holds m v f ->
  returns (vector_abs_sum_noinit M v) m (fun r =>
    r = rsum (vext v) (fun i => if arithmetic M then mag M (f i) else Rabs (repart M (f i)) + Rabs (impart M (f i)))).
Proof.
  intros m v f H. destruct (arithmetic M) eqn:E.
  - eapply returns_conseq; [apply abs_sum_arith_ok; eauto|]. intros r ->. apply Rplus_0_l.
  - eapply returns_conseq; [apply abs_sum_complex_ok; eauto|]. intros r ->. apply Rplus_0_l.
Qed.
Lemma frob_noinit_ok : forall (m : mem O) A a, exact_div dv -> exact_sqrt sq -> (forall v, 0 <= mag M v) ->
  mat_holds m A a ->
  (forall i j i' j', (i < ext0 A)%nat -> (j < ext1 A)%nat -> (i' < ext0 A)%nat -> (j' < ext1 A)%nat ->
     before i j i' j' -> mag M (a i' j') <> 0 -> mag M (a i j) <= mag M (a i' j')) ->
  returns (matrix_frob_norm_noinit M A) m (fun r =>
    r = sqrt (rsum (ext0 A) (fun i => rsum (ext1 A) (fun j => mag M (a i j) * mag M (a i j))))).
Proof.
  intros. eapply returns_conseq; [apply frob_monotone_ok; eauto|]. intros r ->. apply Rplus_0_l.
Qed.
Lemma norms_noinit_ok : forall (m : mem O) A a, (forall v, 0 <= mag M v) -> mat_holds m A a ->
  returns (matrix_inf_norm_noinit M A) m (fun r => r = rmax0 (ext0 A) (fun i => rsum (ext1 A) (fun j => mag M (a i j)))) /\
  returns (matrix_one_norm_noinit M A) m (fun r => r = rmax0 (ext1 A) (fun j => rsum (ext0 A) (fun i => mag M (a i j)))).
Proof.
  intros m A a H0 HA. split; (eapply returns_conseq; [first [apply inf_norm_ok; eauto | apply one_norm_ok; eauto]|]);
    intros r ->; apply Rplus_0_l.
Qed.
End Pf.

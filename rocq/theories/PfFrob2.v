(** matrix_frob_norm in exact arithmetic: exactly when the result is right. *)
From Coq Require Import List Arith Lia Bool Reals Lra Psatz.
From Verif Require Import Mem Scalar View Spec Wp Norm SpecR PfTrsv PfNorm PfFrob.
Import ListNotations.
Set Implicit Arguments.
Local Open Scope R_scope.

Section Pf.
Context {O : ops} (dv : R -> R -> R) (sq : R -> R) (M : mags O (exact dv sq)).
Notation ssr := (@sum_of_squares_result (exact dv sq)).

(** A later nonzero element of smaller magnitude. *)
Lemma frob_too_large : forall (m : mem O) A a (init : R) i0 j0 i1 j1, exact_div dv -> exact_sqrt sq -> (forall v, 0 <= mag M v) ->
  mat_holds m A a ->
  (i0 < ext0 A)%nat -> (j0 < ext1 A)%nat -> (i1 < ext0 A)%nat -> (j1 < ext1 A)%nat ->
  before i0 j0 i1 j1 -> mag M (a i1 j1) <> 0 -> mag M (a i1 j1) < mag M (a i0 j0) ->
  returns (matrix_frob_norm M A init) m (fun r =>
    init + sqrt (rsum (ext0 A) (fun i => rsum (ext1 A) (fun j => mag M (a i j) * mag M (a i j)))) < r).
Proof.
  intros m A a init i0 j0 i1 j1 Hdv Hsq H0 HA Hi0 Hj0 Hi1 Hj1 Hb Hne Hlt0. unfold matrix_frob_norm.
  fold (frob2 M (ext0 A) (ext1 A) a).
  destruct (Nat.eqb_spec (ext0 A) 0) as [E|E]; simpl; [lia|].
  destruct (Nat.eqb_spec (ext1 A) 0) as [E1|E1]; simpl; [lia|].
  destruct ((ext0 A =? 1)%nat && (ext1 A =? 1)%nat) eqn:E2.
  { apply andb_prop in E2. destruct E2 as [E2 E3]. apply Nat.eqb_eq in E2, E3. unfold before in Hb. lia. }
  eapply returns_bind.
  - apply frob_loops with (a := a) (Inv := fun i j t (s : ssr) =>
      0 <= scaling_factor s /\ 0 <= scaled_sum_of_squares s /\
      t <= scaling_factor s * scaling_factor s * scaled_sum_of_squares s /\
      (before i0 j0 i j -> mag M (a i0 j0) <= scaling_factor s) /\
      (before i1 j1 i j -> t < scaling_factor s * scaling_factor s * scaled_sum_of_squares s)); auto.
    + simpl. repeat split; try lra; unfold before; lia.
    + intros i t s Hi (K1 & K2 & K3 & K4 & K5). repeat split; auto.
      * intros Hbb. apply K4. unfold before in *; lia.
      * intros Hbb. apply K5. unfold before in *; lia.
    + intros i j t [s q] Hi Hj (K1 & K2 & K3 & K4 & K5). simpl scaling_factor in *. simpl scaled_sum_of_squares in *.
      unfold frob_step. rget. simpl. fold (mag M (a i j)). pose proof (H0 (a i j)) as Hp.
      assert (Hcase : forall k l, before k l i (S j) -> before k l i j \/ k = i /\ l = j) by (unfold before; intros; lia).
      destruct (Req_EM_T (mag M (a i j)) 0) as [Ez|Ez].
      { apply returns_ret. simpl. repeat split; auto; try (rewrite Ez; lra).
        - intros Hbb. destruct (Hcase _ _ Hbb) as [C|[-> ->]]; auto. lra.
        - intros Hbb. destruct (Hcase _ _ Hbb) as [C|[-> ->]]; [|contradiction]. rewrite Ez. specialize (K5 C). lra. }
      destruct (Rlt_dec s (mag M (a i j))) as [Hlt|Hlt]; apply returns_ret; simpl; rewrite Hdv by auto.
      * pose proof (Rle_0_sqr (s / mag M (a i j))) as Hq2. unfold Rsqr in Hq2.
        assert (mag M (a i j) * mag M (a i j) * (1 + q * (s / mag M (a i j)) * (s / mag M (a i j)))
          = mag M (a i j) * mag M (a i j) + s * s * q) as Eq by (field; auto). rewrite Eq.
        repeat split; auto; [nra|lra| |].
        -- intros Hbb. destruct (Hcase _ _ Hbb) as [C|[-> ->]]; [|lra]. specialize (K4 C). lra.
        -- intros Hbb. destruct (Hcase _ _ Hbb) as [C|[-> ->]]; [specialize (K5 C); lra|]. specialize (K4 Hb). lra.
      * assert (1 <= s / mag M (a i j)) as Hq.
        { apply Rmult_le_reg_r with (mag M (a i j)); [lra|]. unfold Rdiv. rewrite Rmult_assoc, Rinv_l by auto. lra. }
        set (d := s / mag M (a i j)) in *. assert (1 <= d * d) by nra.
        assert (mag M (a i j) * mag M (a i j) <= s * s) by nra.
        repeat split; auto; [nra|nra| |].
        -- intros Hbb. destruct (Hcase _ _ Hbb) as [C|[-> ->]]; auto. lra.
        -- intros Hbb. destruct (Hcase _ _ Hbb) as [C|[-> ->]]; [specialize (K5 C); nra|].
           specialize (K4 Hb). assert (mag M (a i j) * mag M (a i j) < s * s) by nra. nra.
  - intros s (K1 & K2 & K3 & _ & K5). apply returns_ret. simpl. apply Rplus_lt_compat_l.
    rewrite (@final_value sq _ _ _ K1 K2 eq_refl Hsq). apply sqrt_lt_1; [apply (@frob2_nonneg O dv sq M)| |apply K5; left; auto].
    eapply Rle_trans; [apply (@frob2_nonneg O dv sq M)|exact K3].
Qed.

Lemma frob_correct_iff : forall (m : mem O) A a (init : R), exact_div dv -> exact_sqrt sq -> (forall v, 0 <= mag M v) ->
  mat_holds m A a ->
  returns (matrix_frob_norm M A init) m (fun r =>
    r = init + sqrt (rsum (ext0 A) (fun i => rsum (ext1 A) (fun j => mag M (a i j) * mag M (a i j)))) <->
    (forall i j i' j', (i < ext0 A)%nat -> (j < ext1 A)%nat -> (i' < ext0 A)%nat -> (j' < ext1 A)%nat ->
       before i j i' j' -> mag M (a i' j') <> 0 -> mag M (a i j) <= mag M (a i' j'))).
Proof.
  intros m A a init Hdv Hsq H0 HA.
  destruct (@frob_lower_bound O dv sq M m A a init Hdv Hsq H0 HA) as (r & Hr & _).
  exists r. split; [exact Hr|]. split.
  - intros E i j i' j' Hi Hj Hi' Hj' Hb Hn.
    destruct (Rle_dec (mag M (a i j)) (mag M (a i' j'))) as [|C]; auto. exfalso.
    destruct (@frob_too_large m A a init i j i' j' Hdv Hsq H0 HA Hi Hj Hi' Hj' Hb Hn ltac:(lra)) as (r' & Hr' & K).
    rewrite Hr in Hr'. injection Hr' as <-. lra.
  - intros Hm. destruct (@frob_monotone_ok O dv sq M m A a init Hdv Hsq H0 HA Hm) as (r' & Hr' & K).
    rewrite Hr in Hr'. injection Hr' as <-. exact K.
Qed.
End Pf.

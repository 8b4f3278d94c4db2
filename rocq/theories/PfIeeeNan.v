(** NaN and infinity in norms; error bounds of sums of magnitudes. *)
From Coq Require Import List Arith ZArith NArith Reals Lia Lra Bool Psatz.
From Flocq Require Import Core.Core IEEE754.BinarySingleNaN.
From Verif Require Import Mem Scalar View Spec SpecR SpecF Norm Ieee Wp PfNorm PfIeee PfIeeeNorm Blas1 PfBlas1.
Local Open Scope R_scope.

Section Nan.
Context (prec emax : Z) (Hp : Prec_gt_0 prec) (He : Prec_lt_emax prec emax).
Notation fl := (binary_float prec emax).
Notation F := (ieee_r prec emax Hp He).
Notation u := (unit_roundoff prec).
Notation eta := (half_tiny prec emax).
Notation maxf := (max_finite prec emax).
Notation step := (pstep prec emax Hp He).
Notation one := (@Bone prec emax Hp He).

Lemma plus_nan_l : forall x y : fl, is_nan x = true -> is_nan (Bplus mode_NE x y) = true.
Proof. intros [[]|[]| |] [[]|[]| |]; simpl; auto; discriminate. Qed.
Lemma plus_nan_r : forall x y : fl, is_nan y = true -> is_nan (Bplus mode_NE x y) = true.
Proof. intros [[]|[]| |] [[]|[]| |]; simpl; auto; discriminate. Qed.
Lemma mult_nan_l : forall x y : fl, is_nan x = true -> is_nan (Bmult mode_NE x y) = true.
Proof. intros [[]|[]| |] [[]|[]| |]; simpl; auto; discriminate. Qed.
Lemma mult_nan_r : forall x y : fl, is_nan y = true -> is_nan (Bmult mode_NE x y) = true.
Proof. intros [[]|[]| |] [[]|[]| |]; simpl; auto; discriminate. Qed.
Lemma div_nan_l : forall x y : fl, is_nan x = true -> is_nan (Bdiv mode_NE x y) = true.
Proof. intros [[]|[]| |] [[]|[]| |]; simpl; auto; discriminate. Qed.

(** State of the loop once a non-finite element has been met. *)
Definition inf_state (st : @sum_of_squares_result F) : Prop :=
  (scaling_factor st : fl) = B754_infinity false /\ is_finite (scaled_sum_of_squares st : fl) = true /\ 1 <= B2R (scaled_sum_of_squares st : fl).
Definition nan_state (st : @sum_of_squares_result F) : Prop := is_nan (scaled_sum_of_squares st : fl) = true.

Lemma nan_stays : forall a st, nan_state st -> nan_state (step a st).
Proof.
  intros a st H. unfold nan_state, pstep in *. destruct (Beqb _ _); auto. destruct (Bltb _ _); cbn [scaled_sum_of_squares].
  - apply plus_nan_r, mult_nan_l, mult_nan_l; auto.
  - apply plus_nan_l; auto.
Qed.
Lemma nan_enters : forall a st, is_nan a = true -> nan_state (step a st).
Proof.
  intros a st H. unfold nan_state, pstep. destruct a as [[]|[]| |]; try discriminate. cbn [Beqb].
  assert (forall x : fl, Bltb x B754_nan = false) as E by (intros [[]|[]| |]; reflexivity).
  assert (forall x : fl, Beqb B754_nan x = false) as E' by (intros [[]|[]| |]; reflexivity).
  rewrite E', E. cbn [scaled_sum_of_squares]. apply plus_nan_r, mult_nan_l, div_nan_l. reflexivity.
Qed.
Lemma inf_step : forall a st, Babs a = a -> inf_state st ->
  (is_finite a = true -> inf_state (step a st)) /\ (is_finite a = false -> nan_state (step a st)).
Proof.
  intros a st Ha (H1 & H2 & H3). unfold nan_state, pstep.
  destruct st as [sc s]; cbn [scaling_factor scaled_sum_of_squares] in *. subst sc.
  assert (forall x : fl, Bltb (B754_infinity false) x = false) as E by (intros [[]|[]| |]; reflexivity).
  destruct a as [sa|[]| |sa ma ea Ba]; try discriminate Ha; (split; intros Fa; try discriminate Fa).
  - replace (Beqb (B754_zero sa) (B754_zero false)) with true by (destruct sa; reflexivity). repeat split; auto.
  - replace (Beqb (B754_infinity false : fl) (B754_zero false)) with false by reflexivity.
    rewrite E. cbn [scaled_sum_of_squares]. apply plus_nan_r, mult_nan_l. reflexivity.
  - replace (Beqb (B754_nan : fl) (B754_zero false)) with false by reflexivity.
    rewrite E. cbn [scaled_sum_of_squares]. apply plus_nan_r, mult_nan_l. reflexivity.
  - replace (Beqb (B754_finite sa ma ea Ba) (B754_zero false)) with false by (destruct sa; reflexivity).
    rewrite E. cbn [Bdiv Bmult]. unfold inf_state. cbn [scaling_factor scaled_sum_of_squares].
    destruct s as [[]|[]| |ss ms es Bs]; simpl in H2, H3; try discriminate; try lra. cbn [Bplus]. repeat split; auto.
Qed.
Lemma inf_enters : forall st : @sum_of_squares_result F, is_finite (scaling_factor st : fl) = true ->
  (is_finite (scaled_sum_of_squares st : fl) = true -> inf_state (step (B754_infinity false) st)) /\
  (inf_state (step (B754_infinity false) st) \/ nan_state (step (B754_infinity false) st)).
Proof.
  intros st Hsc. unfold nan_state, pstep.
  destruct st as [sc s]; cbn [scaling_factor scaled_sum_of_squares] in *.
  replace (Beqb (B754_infinity false : fl) (B754_zero false)) with false by reflexivity.
  replace (Bltb sc (B754_infinity false)) with true by (destruct sc as [[]|[]| |[]]; simpl in *; try discriminate; reflexivity).
  assert (exists b, Bdiv mode_NE sc (B754_infinity false) = B754_zero b) as [b ->].
  { destruct sc as [[]|[]| |[]]; simpl in *; try discriminate; eexists; reflexivity. }
  assert (K : is_finite s = true -> inf_state (@Ssq F (B754_infinity false)
     (Bplus mode_NE one (Bmult mode_NE (Bmult mode_NE s (B754_zero b)) (B754_zero b))))).
  { intros Fs. assert (exists c, Bmult mode_NE (Bmult mode_NE s (B754_zero b)) (B754_zero b) = B754_zero c) as [c ->].
    { destruct s as [[]|[]| |[]], b; simpl in *; try discriminate; eexists; reflexivity. }
    unfold inf_state. cbn [scaling_factor scaled_sum_of_squares]. split; auto.
    pose proof (Bplus_correct prec emax Hp He mode_NE one (B754_zero c) (one_fin _ _ _ _) eq_refl) as P.
    rewrite (one_R prec emax Hp He) in P. change (B2R (B754_zero c)) with 0 in P. rewrite Rplus_0_r in P.
    assert (round radix2 (SpecFloat.fexp prec emax) (round_mode mode_NE) 1 = 1) as E1.
    { rewrite <- (one_R prec emax Hp He). apply round_generic; auto with typeclass_instances. apply (generic_format_B2R prec emax). }
    rewrite E1 in P. rewrite Rlt_bool_true in P.
    - destruct P as (P1 & P2 & _). rewrite P1. split; auto; lra.
    - rewrite Rabs_R1. change 1 with (bpow radix2 0). apply bpow_lt. red in Hp, He. lia. }
  split; auto. destruct (is_finite s) eqn:Fs; [left; auto|]. right. cbn [scaled_sum_of_squares].
  apply plus_nan_r, mult_nan_l. destruct s as [[]|[]| |[]]; simpl in *; try discriminate; reflexivity.
Qed.
Lemma scale_finite : forall a (st : @sum_of_squares_result F), is_finite a = true -> is_finite (scaling_factor st : fl) = true -> is_finite (scaling_factor (step a st) : fl) = true.
Proof. intros a st Ha H. unfold pstep. destruct (Beqb _ _); auto. destruct (Bltb _ _); auto. Qed.

Context {O : ops} (M : mags O F).
Notation run_steps f n init := (fold_left (fun st i => step (eabs M (f i)) st) (seq 0 n) init).

Lemma steps_nan : forall n (f : nat -> O) init, (exists i, (i < n)%nat /\ is_nan (eabs M (f i) : fl) = true) -> nan_state (run_steps f n init).
Proof.
  induction n as [|n IH]; intros f init (i & Hi & H); [lia|]. rewrite seq_S, fold_left_app. cbn [fold_left plus].
  destruct (Nat.eq_dec i n) as [->|N]; [apply nan_enters; auto|]. apply nan_stays, IH. exists i; split; auto; lia.
Qed.
Lemma steps_bad : forall n (f : nat -> O) (init : @sum_of_squares_result F), is_finite (scaling_factor init : fl) = true ->
  (forall i, (i < n)%nat -> Babs (eabs M (f i) : fl) = eabs M (f i)) ->
  let st := run_steps f n init in
  ((forall i, (i < n)%nat -> is_finite (eabs M (f i) : fl) = true) /\ is_finite (scaling_factor st : fl) = true) \/ inf_state st \/ nan_state st.
Proof.
  induction n as [|n IH]; intros f init H0 Hab; cbv zeta.
  - left. split; auto. intros; lia.
  - rewrite seq_S, fold_left_app. cbn [fold_left plus].
    destruct (IH f init H0 ltac:(intros; apply Hab; lia)) as [[K1 K2]|[K|K]].
    + destruct (is_finite (eabs M (f n) : fl)) eqn:Fa.
      * left. split; [|apply scale_finite; auto]. intros i Hi. destruct (Nat.eq_dec i n) as [->|]; auto. apply K1; lia.
      * right. specialize (Hab n ltac:(lia)). destruct (eabs M (f n) : fl) as [[]|[]| |[]] eqn:Ea; try discriminate.
        -- apply inf_enters; auto.
        -- right. apply nan_enters. reflexivity.
    + right. destruct (inf_step (eabs M (f n)) _ (Hab n ltac:(lia)) K) as [A B]. destruct (is_finite (eabs M (f n) : fl)); auto.
    + right; right. apply nan_stays; auto.
Qed.
Lemma sqrt_ge1 : forall s : fl, is_finite s = true -> 1 <= B2R s ->
  is_finite (Bsqrt mode_NE s) = true /\ 1 <= B2R (Bsqrt mode_NE s).
Proof.
  intros s Fs Hs. destruct (Bsqrt_correct prec emax Hp He mode_NE s) as (S1 & S2 & _). split.
  - rewrite S2. destruct s as [[]|[]| |[] ms es Bs]; auto; simpl in Hs; try lra.
    exfalso. pose proof (F2R_lt_0 radix2 (Float radix2 (Zneg ms) es) ltac:(reflexivity)) as N. unfold F2R in *; simpl in *. lra.
  - rewrite S1. rewrite <- (one_R prec emax Hp He) at 1. apply (rnd_ge prec emax Hp). rewrite (one_R prec emax Hp He).
    rewrite <- sqrt_1. apply sqrt_le_1; lra.
Qed.
Lemma inf_result : forall st : @sum_of_squares_result F, inf_state st ->
  Bmult mode_NE (scaling_factor st : fl) (Bsqrt mode_NE (scaled_sum_of_squares st : fl)) = B754_infinity false.
Proof.
  intros st (H1 & H2 & H3). rewrite H1. destruct (sqrt_ge1 _ H2 H3) as [K1 K2].
  destruct (Bsqrt mode_NE (scaled_sum_of_squares st : fl)) as [[]|[]| |[] ms es Bs]; simpl in K1, K2; try discriminate; try lra; auto.
  exfalso. pose proof (F2R_lt_0 radix2 (Float radix2 (Zneg ms) es) ltac:(reflexivity)) as N. unfold F2R in *; simpl in *. lra.
Qed.
Lemma nan_result : forall st : @sum_of_squares_result F, nan_state st ->
  Bmult mode_NE (scaling_factor st : fl) (Bsqrt mode_NE (scaled_sum_of_squares st : fl)) = B754_nan.
Proof.
  intros st H. unfold nan_state in H. destruct (scaled_sum_of_squares st : fl); try discriminate. simpl.
  destruct (scaling_factor st : fl) as [[]|[]| |]; reflexivity.
Qed.

Lemma two_norm_run : forall (m : mem O) x f (init : fl), vec_holds m x f ->
  let st := run_steps f (vext x) (@Ssq F (B754_zero false) one) in
  run (vector_two_norm M x init) m =
  Ok (Bplus mode_NE init (Bmult mode_NE (scaling_factor st : fl) (Bsqrt mode_NE (scaled_sum_of_squares st : fl)))) m.
Proof.
  intros m x f init Hx st. unfold vector_two_norm. rewrite run_bind.
  destruct (ssq_run prec emax Hp He M m x f (@Ssq F (B754_zero false) one) Hx) as (r & Hr & ->).
  change (@Ssq F r0 r1) with (@Ssq F (B754_zero false) one). rewrite Hr. reflexivity.
Qed.
Lemma two_norm_nan : forall (m : mem O) x f (init : fl), vec_holds m x f ->
  (is_nan init = true \/ exists i, (i < vext x)%nat /\ is_nan (eabs M (f i) : fl) = true) ->
  returns (vector_two_norm M x init) m (fun r : fl => is_nan r = true).
Proof.
  intros m x f init Hx H. eexists. split; [apply two_norm_run; eauto|]. destruct H as [H|H].
  - apply plus_nan_l; auto.
  - rewrite nan_result by (apply steps_nan; auto). apply plus_nan_r. reflexivity.
Qed.
Lemma two_norm_finite_only : forall (m : mem O) x f (init : fl), vec_holds m x f ->
  (forall i, (i < vext x)%nat -> Babs (eabs M (f i) : fl) = eabs M (f i)) ->
  returns (vector_two_norm M x init) m (fun r : fl => is_finite r = true ->
    is_finite init = true /\ forall i, (i < vext x)%nat -> is_finite (eabs M (f i) : fl) = true).
Proof.
  intros m x f init Hx Hab. eexists. split; [apply two_norm_run; eauto|]. intros Fr. split.
  - destruct init as [[]|[]| |]; auto; exfalso; destruct (Bmult _ _ _) as [[]|[]| |]; discriminate.
  - destruct (steps_bad (vext x) f (@Ssq F (B754_zero false) one) eq_refl Hab) as [[K _]|[K|K]]; auto; exfalso.
    + rewrite inf_result in Fr by exact K. destruct init as [[]|[]| |]; discriminate.
    + rewrite nan_result in Fr by exact K. destruct init as [[]|[]| |]; discriminate.
Qed.
Lemma steps_inf : forall (f : nat -> O) n k, (k <= n)%nat ->
  (forall i, (i < n)%nat -> Babs (eabs M (f i) : fl) = eabs M (f i)) ->
  forall init, inf_state init -> (forall i, (k <= i < n)%nat -> is_finite (eabs M (f i) : fl) = true) ->
  inf_state (fold_left (fun st i => step (eabs M (f i)) st) (seq k (n - k)) init).
Proof.
  intros f n k Hk Hab. remember (n - k)%nat as d. revert k Hk Heqd. induction d as [|d IH]; intros k Hk E init Hi Hf; cbn [seq fold_left]; auto.
  apply IH; try lia.
  - apply inf_step; auto; [apply Hab; lia|]. apply Hf. lia.
  - intros; apply Hf; lia.
Qed.
Lemma two_norm_one_inf : forall (m : mem O) x f (init : fl) k, vec_holds m x f ->
  (k < vext x)%nat -> eabs M (f k) = (B754_infinity false : fl) ->
  (forall i, (i < vext x)%nat -> i <> k -> is_finite (eabs M (f i) : fl) = true /\ Babs (eabs M (f i) : fl) = eabs M (f i)) ->
  (1 + INR (vext x)) * (1 + u) ^ vext x <= maxf -> is_finite init = true ->
  returns (vector_two_norm M x init) m (fun r : fl => r = B754_infinity false).
Proof.
  intros m x f init k Hx Hk Ek Hf Hmax Fi. eexists. split; [apply two_norm_run; eauto|].
  assert (Hinf : inf_state (run_steps f (vext x) (@Ssq F (B754_zero false) one))).
  { replace (vext x) with (k + (1 + (vext x - S k)))%nat by lia. rewrite seq_app, fold_left_app. cbn [plus seq fold_left].
    apply steps_inf; try lia.
    - intros i Hi. destruct (Nat.eq_dec i k) as [->|N]; [rewrite Ek; reflexivity|]. apply Hf; auto.
    - rewrite Ek. 
      assert (G : good_mags M k f).
      { intros i Hi. destruct (Hf i ltac:(lia) ltac:(lia)) as [A B]. split; auto. rewrite <- B. rewrite B2R_Babs. apply Rabs_pos. }
      assert (HM : (B2R (one : fl) + INR k) * (1 + u) ^ k <= maxf).
      { rewrite (one_R prec emax Hp He). eapply Rle_trans; [|exact Hmax]. pose proof (u_range prec Hp). pose proof (pos_INR k).
        assert (INR k <= INR (vext x)) by (apply le_INR; lia).
        apply Rmult_le_compat; try lra. - apply pow_le; lra. - apply Rle_pow; [lra|lia]. }
      destruct (ssq_inv prec emax Hp He M k f (@Ssq F (B754_zero false) one) G eq_refl (one_fin _ _ _ _)) with (k := k) as (I1 & I2 & _); auto.
      + simpl; lra.
      + cbn [scaled_sum_of_squares]. rewrite (one_R prec emax Hp He). lra.
      + apply inf_enters; auto.
    - intros i Hi. apply Hf; lia. }
  rewrite inf_result by exact Hinf. destruct init as [[]|[]| |]; try discriminate; reflexivity.
Qed.
End Nan.

(** Order and scaling of rounded norms: the algorithms. *)
From Coq Require Import List Arith Bool ZArith Reals Lra Lia.
From Flocq Require Import Core.Core IEEE754.BinarySingleNaN.
From Verif Require Import Mem Scalar View Spec Wp Blas1 Norm SpecR Ieee SpecF SpecOrd PfFloat PfNorm PfBlas1 PfIeeeNorm PfIeeeNan PfIeeeSum PfIdxNan PfNormOrd PfNormOrd2.
Import ListNotations.
Local Open Scope R_scope.

Section Pf.
Variables prec emax : Z.
Hypothesis Hp : Prec_gt_0 prec.
Hypothesis He : Prec_lt_emax prec emax.
Notation fl := (binary_float prec emax).
Notation F := (ieee_r prec emax Hp He).
Notation fsum := (fsum prec emax Hp He).
Notation lines := (lines prec emax Hp He).
Notation ok := (upper_intro prec emax).

Lemma fsum_tops : forall n (init : fl) g, fle (B754_zero false) init -> (forall i, (i < n)%nat -> magnitude (g i)) -> tops init n g (fsum init n g).
Proof.
  intros n init g Zi Hg. split; [apply (fsum_ge_init prec emax Hp He); auto; apply (zero_upper prec emax); auto|].
  split; [apply (fsum_ge prec emax Hp He); auto|]. apply (fsum_zero prec emax Hp He); auto.
Qed.

Context {O O2 : ops} (M : mags O F) (M2 : mags O2 F).

Lemma abs_sum_order : forall (m : mem O) x f (init : fl), arithmetic M = true -> vec_holds m x f ->
  fle (B754_zero false) init -> (forall i, (i < vext x)%nat -> magnitude (emag M (f i))) ->
  returns (vector_abs_sum M x init) m (tops init (vext x) (fun i => emag M (f i))).
Proof. intros m x f init HA Hx Zi Hf. eexists. split; [apply (abs_sum_run prec emax Hp He M m x f init HA Hx)|]. apply fsum_tops; auto. Qed.
Lemma parts_mag : forall f n, (forall i, (i < n)%nat -> is_nan (ereal M (f i) : fl) = false /\ is_nan (eimag M (f i) : fl) = false) ->
  forall k, (k < 2 * n)%nat -> magnitude (parts prec emax Hp He M f k).
Proof.
  intros f n H k Hk. assert (D : (Nat.div2 k < n)%nat).
  { pose proof (Nat.div2_odd k). destruct (Nat.odd k); simpl Nat.b2n in *; lia. }
  destruct (H _ D) as [A B]. unfold parts. destruct (Nat.even k); (split; [apply Babs_idempotent|rewrite is_nan_Babs; auto]).
Qed.
Lemma abs_sum_c_order : forall (m : mem O) x f (init : fl), arithmetic M = false -> vec_holds m x f ->
  fle (B754_zero false) init ->
  (forall i, (i < vext x)%nat -> is_nan (ereal M (f i) : fl) = false /\ is_nan (eimag M (f i) : fl) = false) ->
  returns (vector_abs_sum M x init) m (fun r : fl => fle init r /\
    (forall i, (i < vext x)%nat -> fle (Babs (ereal M (f i) : fl)) r /\ fle (Babs (eimag M (f i) : fl)) r) /\
    (fzero r <-> fzero init /\ forall i, (i < vext x)%nat -> fzero (ereal M (f i) : fl) /\ fzero (eimag M (f i) : fl))).
Proof.
  intros m x f init HA Hx Zi Hf. eexists. split; [apply (abs_sum_c_run prec emax Hp He M m x f init HA Hx)|].
  destruct (fsum_tops (2 * vext x) init (parts prec emax Hp He M f) Zi (parts_mag f _ Hf)) as (T1 & T2 & T3).
  split; auto. split.
  - intros i Hi. split.
    + rewrite <- (parts_even prec emax Hp He M f i). apply T2. lia.
    + rewrite <- (parts_odd prec emax Hp He M f i). apply T2. lia.
  - rewrite T3. assert (Z : forall z : fl, fzero (Babs z) <-> fzero z).
    { intros z. rewrite !(fzero_ext prec emax). split; intros [s E].
      - destruct z; try discriminate. eauto. - subst z. exists false. reflexivity. }
    split; intros [Z1 Z2]; split; auto.
    + intros i Hi. split; apply Z.
      * rewrite <- (parts_even prec emax Hp He M f i). apply Z2. lia.
      * rewrite <- (parts_odd prec emax Hp He M f i). apply Z2. lia.
    + intros k Hk. assert (D : (Nat.div2 k < vext x)%nat).
      { pose proof (Nat.div2_odd k). destruct (Nat.odd k); simpl Nat.b2n in *; lia. }
      unfold parts. destruct (Nat.even k); apply Z, Z2; auto.
Qed.
Lemma inf_norm_order : forall (m : mem O) A a (init : fl), mat_holds m A a -> fle (B754_zero false) init ->
  (forall i j, (i < ext0 A)%nat -> (j < ext1 A)%nat -> magnitude (emag M (a i j))) ->
  returns (matrix_inf_norm M A init) m (tops2 init (ext0 A) (ext1 A) (fun i j => emag M (a i j))).
Proof.
  intros m A a init HA Zi Ha. eexists. split; [apply (inf_norm_run prec emax Hp He M m A a init HA)|].
  apply (lines_bounds prec emax Hp He (ext0 A) (ext1 A) (fun i j => emag M (a i j))); auto.
Qed.
Lemma one_norm_order : forall (m : mem O) A a (init : fl), mat_holds m A a -> fle (B754_zero false) init ->
  (forall i j, (i < ext0 A)%nat -> (j < ext1 A)%nat -> magnitude (emag M (a i j))) ->
  returns (matrix_one_norm M A init) m (tops2 init (ext0 A) (ext1 A) (fun i j => emag M (a i j))).
Proof.
  intros m A a init HA Zi Ha. eexists. split; [apply (one_norm_run prec emax Hp He M m A a init HA)|].
  rewrite (orb_comm (ext0 A =? 0)%nat), (andb_comm (ext0 A =? 1)%nat).
  destruct (lines_bounds prec emax Hp He (ext1 A) (ext0 A) (fun j i => emag M (a i j)) init Zi) as (T1 & T2 & T3); auto.
  split; [exact T1|]. split; [intros i j Hi Hj; apply (T2 j i Hj Hi)|].
  destruct T3 as [T4 T5]. split.
  - intros Z. destruct (T4 Z) as [Z1 Z2]. split; auto.
  - intros [Z1 Z2]. apply T5. split; auto.
Qed.

Lemma abs_sum_mono : forall (m : mem O) (m2 : mem O2) x y f g (init init2 : fl),
  arithmetic M = true -> arithmetic M2 = true -> vec_holds m x f -> vec_holds m2 y g -> vext y = vext x ->
  fle init init2 -> init <> B754_infinity true ->
  (forall i, (i < vext x)%nat -> magnitude (emag M (f i)) /\ magnitude (emag M2 (g i)) /\ fle (emag M (f i)) (emag M2 (g i))) ->
  both_return (vector_abs_sum M x init) m (vector_abs_sum M2 y init2) m2 fle.
Proof.
  intros m m2 x y f g init init2 HA HA2 Hx Hy E Li Ni H. eexists. eexists.
  split; [apply (abs_sum_run prec emax Hp He M m x f init HA Hx)|].
  split; [apply (abs_sum_run prec emax Hp He M2 m2 y g init2 HA2 Hy)|]. rewrite E.
  apply (fsum_mono prec emax Hp He); auto. apply (upper_intro prec emax); auto. apply (fle_nan_l prec emax _ _ Li).
Qed.
Lemma inf_norm_mono : forall (m : mem O) (m2 : mem O2) A B a b (init init2 : fl),
  mat_holds m A a -> mat_holds m2 B b -> ext0 B = ext0 A -> ext1 B = ext1 A ->
  fle init init2 -> init <> B754_infinity true ->
  (forall i j, (i < ext0 A)%nat -> (j < ext1 A)%nat -> magnitude (emag M (a i j)) /\ magnitude (emag M2 (b i j)) /\ fle (emag M (a i j)) (emag M2 (b i j))) ->
  both_return (matrix_inf_norm M A init) m (matrix_inf_norm M2 B init2) m2 fle.
Proof.
  intros m m2 A B a b init init2 HA HB E0 E1 Li Ni H. eexists. eexists.
  split; [apply (inf_norm_run prec emax Hp He M m A a init HA)|].
  split; [apply (inf_norm_run prec emax Hp He M2 m2 B b init2 HB)|]. rewrite E0, E1.
  apply (lines_mono prec emax Hp He (ext0 A) (ext1 A) (fun i j => emag M (a i j)) (fun i j => emag M2 (b i j))); auto.
  apply (upper_intro prec emax); auto. apply (fle_nan_l prec emax _ _ Li).
Qed.
Lemma one_norm_mono : forall (m : mem O) (m2 : mem O2) A B a b (init init2 : fl),
  mat_holds m A a -> mat_holds m2 B b -> ext0 B = ext0 A -> ext1 B = ext1 A ->
  fle init init2 -> init <> B754_infinity true ->
  (forall i j, (i < ext0 A)%nat -> (j < ext1 A)%nat -> magnitude (emag M (a i j)) /\ magnitude (emag M2 (b i j)) /\ fle (emag M (a i j)) (emag M2 (b i j))) ->
  both_return (matrix_one_norm M A init) m (matrix_one_norm M2 B init2) m2 fle.
Proof.
  intros m m2 A B a b init init2 HA HB E0 E1 Li Ni H. eexists. eexists.
  split; [apply (one_norm_run prec emax Hp He M m A a init HA)|].
  split; [apply (one_norm_run prec emax Hp He M2 m2 B b init2 HB)|]. rewrite E0, E1.
  rewrite (orb_comm (ext0 A =? 0)%nat), (andb_comm (ext0 A =? 1)%nat).
  apply (lines_mono prec emax Hp He (ext1 A) (ext0 A) (fun j i => emag M (a i j)) (fun j i => emag M2 (b i j))); auto.
  apply (upper_intro prec emax); auto. apply (fle_nan_l prec emax _ _ Li).
Qed.

Lemma abs_sum_scale : forall e (m : mem O) (m2 : mem O2) x y f g (init init2 : fl),
  arithmetic M = true -> arithmetic M2 = true -> vec_holds m x f -> vec_holds m2 y g -> vext y = vext x ->
  fle (B754_zero false) init -> is_finite init2 = true -> B2R init2 = bpow radix2 e * B2R init ->
  (forall i, (i < vext x)%nat -> scaled_by e (emag M (f i)) (emag M2 (g i))) ->
  both_return (vector_abs_sum M x init) m (vector_abs_sum M2 y init2) m2 (scales e).
Proof.
  intros e m m2 x y f g init init2 HA HA2 Hx Hy E Zi Fi Ei H. eexists. eexists.
  split; [apply (abs_sum_run prec emax Hp He M m x f init HA Hx)|].
  split; [apply (abs_sum_run prec emax Hp He M2 m2 y g init2 HA2 Hy)|]. rewrite E. intros Fr Hm.
  apply (fsum_scale prec emax Hp He); auto. intros i Hi. destruct (H i Hi) as (K1 & _ & _ & K2 & K3). auto.
Qed.
Lemma inf_norm_scale : forall e (m : mem O) (m2 : mem O2) A B a b (init init2 : fl),
  mat_holds m A a -> mat_holds m2 B b -> ext0 B = ext0 A -> ext1 B = ext1 A ->
  fle (B754_zero false) init -> is_finite init2 = true -> B2R init2 = bpow radix2 e * B2R init ->
  (forall i j, (i < ext0 A)%nat -> (j < ext1 A)%nat -> scaled_by e (emag M (a i j)) (emag M2 (b i j))) ->
  both_return (matrix_inf_norm M A init) m (matrix_inf_norm M2 B init2) m2 (scales e).
Proof.
  intros e m m2 A B a b init init2 HA HB E0 E1 Zi Fi Ei H. eexists. eexists.
  split; [apply (inf_norm_run prec emax Hp He M m A a init HA)|].
  split; [apply (inf_norm_run prec emax Hp He M2 m2 B b init2 HB)|]. rewrite E0, E1. intros Fr Hm.
  apply (lines_scale prec emax Hp He e (ext0 A) (ext1 A) (fun i j => emag M (a i j)) (fun i j => emag M2 (b i j)) init init2); auto.
  intros i j Hi Hj. destruct (H i j Hi Hj) as (K1 & _ & _ & K2 & K3). auto.
Qed.
Lemma one_norm_scale : forall e (m : mem O) (m2 : mem O2) A B a b (init init2 : fl),
  mat_holds m A a -> mat_holds m2 B b -> ext0 B = ext0 A -> ext1 B = ext1 A ->
  fle (B754_zero false) init -> is_finite init2 = true -> B2R init2 = bpow radix2 e * B2R init ->
  (forall i j, (i < ext0 A)%nat -> (j < ext1 A)%nat -> scaled_by e (emag M (a i j)) (emag M2 (b i j))) ->
  both_return (matrix_one_norm M A init) m (matrix_one_norm M2 B init2) m2 (scales e).
Proof.
  intros e m m2 A B a b init init2 HA HB E0 E1 Zi Fi Ei H. eexists. eexists.
  split; [apply (one_norm_run prec emax Hp He M m A a init HA)|].
  split; [apply (one_norm_run prec emax Hp He M2 m2 B b init2 HB)|]. rewrite E0, E1.
  rewrite (orb_comm (ext0 A =? 0)%nat), (andb_comm (ext0 A =? 1)%nat). intros Fr Hm.
  apply (lines_scale prec emax Hp He e (ext1 A) (ext0 A) (fun j i => emag M (a i j)) (fun j i => emag M2 (b i j)) init init2); auto.
  intros i j Hi Hj. destruct (H j i Hj Hi) as (K1 & _ & _ & K2 & K3). auto.
Qed.

(** Products of an element with itself. *)
Lemma square_mag : forall x : fl, is_nan x = false -> magnitude (Bmult mode_NE x x).
Proof.
  intros x N. destruct (is_finite x) eqn:Fx.
  - pose proof (Bmult_correct prec emax Hp He mode_NE x x) as K. rewrite xorb_nilpotent, Fx in K.
    destruct (Rlt_bool _ _).
    + destruct K as (_ & K2 & K3). assert (Np : is_nan (Bmult mode_NE x x) = false) by (destruct (Bmult _ _ _); auto; discriminate).
      apply (sign_mag prec emax); auto.
    + destruct (Bmult mode_NE x x); simpl in K; try discriminate. injection K as ->. split; reflexivity.
  - destruct x as [[]|[]| |]; try discriminate; split; reflexivity.
Qed.
Lemma dot_self_order : forall (m : mem (ieee_ops prec emax Hp He)) x f (init : fl), vec_holds m x f ->
  fle (B754_zero false) init -> (forall i, (i < vext x)%nat -> is_nan (f i : fl) = false) ->
  succeeds (dot x x init) m (fun r m' => m' = m /\ fle init (r : fl) /\
    forall i, (i < vext x)%nat -> fle (Bmult mode_NE (f i : fl) (f i)) r).
Proof.
  intros m x f init Hx Zi Hf. eapply wp_conseq; [apply (@dot_ok (ieee_ops prec emax Hp He)); eauto|]. intros r m' [-> ->].
  split; auto.
  assert (E : forall n, @sum_from (ieee_ops prec emax Hp He) init 0 n (fun k => mul (f k) (f k)) = fsum init n (fun i => Bmult mode_NE (f i : fl) (f i))).
  { induction n as [|n IH]; [reflexivity|]. rewrite sum_from_S, fsum_S, IH. reflexivity. }
  rewrite E. destruct (fsum_tops (vext x) init (fun i => Bmult mode_NE (f i : fl) (f i)) Zi) as (T1 & T2 & _); auto.
  intros i Hi. apply square_mag; auto.
Qed.
End Pf.

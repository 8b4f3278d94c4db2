(** The 2-norm of a vector with two infinite elements. *)
From Coq Require Import List Arith Bool ZArith Reals Lra Lia.
From Flocq Require Import Core.Core IEEE754.BinarySingleNaN.
From Verif Require Import Mem Scalar View Spec Wp Norm SpecR Ieee SpecF PfFloat PfNorm PfIeeeNorm PfIeeeNan.
Import ListNotations.
Local Open Scope R_scope.

Section Pf.
Variables prec emax : Z.
Hypothesis Hp : Prec_gt_0 prec.
Hypothesis He : Prec_lt_emax prec emax.
Notation fl := (binary_float prec emax).
Notation F := (ieee_r prec emax Hp He).
Context {O : ops} (M : mags O F).

Lemma two_norm_two_inf : forall (m : mem O) x f (init : fl) k l, vec_holds m x f ->
  (forall i, (i < vext x)%nat -> Babs (eabs M (f i) : fl) = eabs M (f i)) ->
  (k < l < vext x)%nat -> eabs M (f k) = (B754_infinity false : fl) -> eabs M (f l) = (B754_infinity false : fl) ->
  returns (vector_two_norm M x init) m (fun r : fl => is_nan r = true).
Proof.
  intros m x f init k l Hx Hab Hkl Ek El. eexists. split; [apply (two_norm_run prec emax Hp He M); eauto|].
  rewrite nan_result; [apply (plus_nan_r prec emax Hp He); reflexivity|].
  replace (vext x) with (l + (1 + (vext x - S l)))%nat by lia. rewrite seq_app, fold_left_app. cbn [plus seq fold_left].
  assert (St : forall n j st, nan_state prec emax Hp He st ->
    nan_state prec emax Hp He (fold_left (fun st i => pstep prec emax Hp He (eabs M (f i)) st) (seq j n) st)).
  { induction n as [|n IH]; intros j st H; cbn [seq fold_left]; auto. apply IH, nan_stays, H. }
  apply St.
  destruct (steps_bad prec emax Hp He M l f (@Ssq F (B754_zero false) (Bone : fl)) eq_refl ltac:(intros; apply Hab; lia)) as [[K _]|[K|K]].
  - specialize (K k ltac:(lia)). rewrite Ek in K. discriminate.
  - destruct (inf_step prec emax Hp He (eabs M (f l)) _ (Hab l ltac:(lia)) K) as [_ B]. apply B. rewrite El. reflexivity.
  - apply nan_stays; auto.
Qed.
End Pf.

(** * Matrix norms with a NaN: lines up to the last one with a NaN are forgotten. *)
From Verif Require Import PfIdxNan PfIeeeSum.
Section Lines.
Variables prec emax : Z.
Hypothesis Hp : Prec_gt_0 prec.
Hypothesis He : Prec_lt_emax prec emax.
Notation fl := (binary_float prec emax).
Notation F := (ieee_r prec emax Hp He).
Notation lmax := (lmax prec emax Hp He).
Notation fsum := (fsum prec emax Hp He).
Context {O : ops} (M : mags O F).

Lemma lmax_forget : forall (init : fl) (h : nat -> fl) p n, is_nan (h p) = true ->
  (forall i, (p < i < n)%nat -> is_nan (h i) = false) -> (p < n)%nat ->
  (S p = n -> is_nan (lmax init n h) = true) /\
  ((S p < n)%nat -> (exists i, (p < i < n)%nat /\ lmax init n h = h i) /\
     forall i, (p < i < n)%nat -> Bltb (lmax init n h) (h i) = false).
Proof.
  intros init h p n Hnan. induction n as [|n IH]; intros Hn Hpn; [lia|].
  destruct (Nat.eq_dec p n) as [->|N].
  - split; [|lia]. intros _. rewrite lmax_S. unfold std_max. change (@rltb F ?x ?y) with (Bltb (x : fl) (y : fl)).
    rewrite Bltb_bad by auto. exact Hnan.
  - split; [lia|]. intros _. specialize (IH ltac:(intros; apply Hn; lia) ltac:(lia)). destruct IH as [I1 I2].
    rewrite lmax_S. unfold std_max. change (@rltb F ?x ?y) with (Bltb (x : fl) (y : fl)).
    assert (Nn : is_nan (h n) = false) by (apply Hn; lia).
    destruct (Nat.eq_dec (S p) n) as [E|E].
    + rewrite (Bltb_bad prec emax (h n) (lmax init n h)) by auto. split; [exists n; split; auto; lia|].
      intros i Hi. replace i with n by lia. apply Bltb_irr; auto.
    + destruct (I2 ltac:(lia)) as [(i0 & Hi0 & E0) I3].
      assert (Nr : is_nan (lmax init n h) = false) by (rewrite E0; apply Hn; lia).
      destruct (Bltb (h n) (lmax init n h)) eqn:C.
      * split; [exists i0; split; auto; lia|]. intros i Hi. destruct (Nat.eq_dec i n) as [->|]; [|apply I3; lia].
        destruct (Bltb (lmax init n h) (h n)) eqn:C'; auto.
        pose proof (Bltb_trans prec emax _ _ _ Nn Nr Nn C C') as C2. rewrite Bltb_irr in C2 by auto. discriminate.
      * split; [exists n; split; auto; lia|]. intros i Hi. destruct (Nat.eq_dec i n) as [->|]; [apply Bltb_irr; auto|].
        destruct (Bltb (h n) (h i)) eqn:C'; auto.
        destruct (Bltb_negtrans prec emax _ (lmax init n h) _ Nn Nr (Hn i ltac:(lia)) C') as [K|K]; [congruence|].
        rewrite (I3 i ltac:(lia)) in K. discriminate.
Qed.

Lemma lines_forget : forall n k (b : nat -> nat -> O) (init : fl) p, is_nan init = false -> init <> B754_infinity true ->
  (forall i j, (i < n)%nat -> (j < k)%nat -> Babs (eabs M (b i j) : fl) = eabs M (b i j)) ->
  (p < n)%nat -> (exists j, (j < k)%nat /\ is_nan (eabs M (b p j) : fl) = true) ->
  (forall i j, (p < i < n)%nat -> (j < k)%nat -> is_nan (eabs M (b i j) : fl) = false) ->
  let r := (if ((n =? 0) || (k =? 0))%nat then init
    else if ((n =? 1) && (k =? 1))%nat then fsum init 1 (fun _ => eabs M (b 0 0)%nat)
    else lmax init n (fun i => fsum init k (fun j => eabs M (b i j)))) in
  (S p = n -> is_nan r = true) /\
  ((S p < n)%nat -> is_nan r = false /\ (exists i, (p < i < n)%nat /\ r = fsum init k (fun j => eabs M (b i j))) /\
     forall i, (p < i < n)%nat -> Bltb r (fsum init k (fun j => eabs M (b i j))) = false).
Proof.
  intros n k b init p Ni Mi Hab Hpn (j & Hj & Hnan) Hgood r.
  pose proof (upper_intro prec emax _ Ni Mi) as Hi.
  unfold r. destruct (Nat.eqb_spec n 0) as [->|N0]; [lia|]. destruct (Nat.eqb_spec k 0) as [->|K0]; [lia|]. cbn [orb].
  destruct ((n =? 1)%nat && (k =? 1)%nat) eqn:E.
  { apply andb_prop in E. destruct E as [E1 E2]. apply Nat.eqb_eq in E1, E2. subst n k. split; [|lia]. intros _.
    apply fsum_nan. right. exists 0%nat. split; [lia|]. replace p with 0%nat in Hnan by lia. replace j with 0%nat in Hnan by lia. exact Hnan. }
  assert (Hs : forall i, (p < i < n)%nat -> is_nan (fsum init k (fun j => eabs M (b i j))) = false).
  { intros i Hlt. destruct (fsum_inf prec emax Hp He k init (fun j => eabs M (b i j)) Hi) as [K _].
    - intros j' Hj'. split; [apply Hab; auto; lia|apply Hgood; auto].
    - destruct (fsum _ _ _) as [[]|[]| |]; simpl in *; auto; tauto. }
  destruct (lmax_forget init (fun i => fsum init k (fun j => eabs M (b i j))) p n) as [K1 K2]; auto.
  { apply fsum_nan. right. exists j. auto. }
  split; auto. intros L. destruct (K2 L) as [K3 K4]. split; [|split; auto].
  destruct K3 as (i & Hlt & ->). auto.
Qed.

Lemma inf_norm_forget : forall (m : mem O) A a (init : fl) p, mat_holds m A a -> is_nan init = false -> init <> B754_infinity true ->
  (forall i j, (i < ext0 A)%nat -> (j < ext1 A)%nat -> Babs (eabs M (a i j) : fl) = eabs M (a i j)) ->
  (p < ext0 A)%nat -> (exists j, (j < ext1 A)%nat /\ is_nan (eabs M (a p j) : fl) = true) ->
  (forall i j, (p < i < ext0 A)%nat -> (j < ext1 A)%nat -> is_nan (eabs M (a i j) : fl) = false) ->
  let sum i := fold_left (fun s j => Bplus mode_NE s (eabs M (a i j) : fl)) (seq 0 (ext1 A)) init in
  returns (matrix_inf_norm M A init) m (fun r : fl =>
    (S p = ext0 A -> is_nan r = true) /\
    ((S p < ext0 A)%nat -> is_nan r = false /\ (exists i, (p < i < ext0 A)%nat /\ r = sum i) /\
       forall i, (p < i < ext0 A)%nat -> Bltb r (sum i) = false)).
Proof.
  intros m A a init p HA Ni Mi Hab Hpn Hnan Hgood sum. eexists. split; [apply (inf_norm_run prec emax Hp He M); eauto|].
  apply (lines_forget (ext0 A) (ext1 A) a init p); auto.
Qed.
Lemma one_norm_forget : forall (m : mem O) A a (init : fl) p, mat_holds m A a -> is_nan init = false -> init <> B754_infinity true ->
  (forall i j, (i < ext0 A)%nat -> (j < ext1 A)%nat -> Babs (eabs M (a i j) : fl) = eabs M (a i j)) ->
  (p < ext1 A)%nat -> (exists i, (i < ext0 A)%nat /\ is_nan (eabs M (a i p) : fl) = true) ->
  (forall i j, (i < ext0 A)%nat -> (p < j < ext1 A)%nat -> is_nan (eabs M (a i j) : fl) = false) ->
  let sum j := fold_left (fun s i => Bplus mode_NE s (eabs M (a i j) : fl)) (seq 0 (ext0 A)) init in
  returns (matrix_one_norm M A init) m (fun r : fl =>
    (S p = ext1 A -> is_nan r = true) /\
    ((S p < ext1 A)%nat -> is_nan r = false /\ (exists j, (p < j < ext1 A)%nat /\ r = sum j) /\
       forall j, (p < j < ext1 A)%nat -> Bltb r (sum j) = false)).
Proof.
  intros m A a init p HA Ni Mi Hab Hpn Hnan Hgood sum. eexists. split; [apply (one_norm_run prec emax Hp He M); eauto|].
  rewrite (orb_comm (ext0 A =? 0)%nat), (andb_comm (ext0 A =? 1)%nat).
  apply (lines_forget (ext1 A) (ext0 A) (fun j i => a i j) init p); auto.
Qed.
End Lines.

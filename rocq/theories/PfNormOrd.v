(** Proofs about the order of rounded norms. *)
From Coq Require Import List Arith Bool ZArith Reals Lra Lia.
From Flocq Require Import Core.Core IEEE754.BinarySingleNaN.
From Verif Require Import Mem Scalar View Spec Wp Norm SpecR Ieee SpecF SpecOrd PfFloat PfNorm PfIeeeNorm PfIeeeNan PfIeeeSum PfIdxNan.
Import ListNotations.
Local Open Scope R_scope.

Section Pf.
Variables prec emax : Z.
Hypothesis Hp : Prec_gt_0 prec.
Hypothesis He : Prec_lt_emax prec emax.
Notation fl := (binary_float prec emax).
Notation F := (ieee_r prec emax Hp He).
Notation rnd := (round radix2 (FLT_exp (3 - emax - prec) prec) ZnearestE).
Notation maxf := (max_finite prec emax).
Notation u := (unit_roundoff prec).
Notation fsum := (fsum prec emax Hp He).
Notation lmax := (lmax prec emax Hp He).
Notation upper := (upper prec emax).

Lemma mag_R : forall x : fl, magnitude x -> is_finite x = true -> 0 <= B2R x.
Proof. intros x [A _] Fx. rewrite <- A, B2R_Babs. apply Rabs_pos. Qed.

(** x <= y *)
Definition ext_le (x y : fl) : Prop :=
  (is_finite x = true /\ is_finite y = true /\ B2R x <= B2R y) \/
  (x = B754_infinity true /\ is_nan y = false) \/ (y = B754_infinity false /\ is_nan x = false).
Lemma fle_ext : forall x y : fl, fle x y <-> ext_le x y.
Proof.
  intros x y. unfold fle, ext_le.
  destruct (is_finite x) eqn:Fx; destruct (is_finite y) eqn:Fy.
  - rewrite (Bleb_correct prec emax x y Fx Fy). split.
    + intros H. left. repeat split; auto. revert H. case Rle_bool_spec; auto. discriminate.
    + intros [(_ & _ & H)|[[-> _]|[-> _]]]; try discriminate. apply Rle_bool_true; auto.
  - destruct y as [[]|[]| |]; try discriminate Fy; destruct x as [[]|[]| |[]]; try discriminate Fx; cbn;
      (split; [intros H; try discriminate H; right; right; auto|intros [(_ & H & _)|[[H _]|[H _]]]; try discriminate H; reflexivity]).
  - destruct x as [[]|[]| |]; try discriminate Fx; destruct y as [[]|[]| |[]]; try discriminate Fy; cbn;
      (split; [intros H; try discriminate H; right; left; auto|intros [(H & _)|[[H _]|[H _]]]; try discriminate H; reflexivity]).
  - destruct x as [[]|[]| |]; try discriminate Fx; destruct y as [[]|[]| |]; try discriminate Fy; cbn;
      (split; [intros H; try discriminate H; right; auto|intros [(H & _)|[[H K]|[H K]]]; try discriminate H; try discriminate K; reflexivity]).
Qed.
Lemma fle_refl : forall x : fl, is_nan x = false -> fle x x.
Proof.
  intros x N. apply fle_ext. destruct x as [s|[]| |s mm ee B]; try discriminate N.
  - left. repeat split; auto. lra.
  - right; left; auto. - right; right; auto. - left. repeat split; auto. lra.
Qed.
Lemma fle_trans : forall x y z : fl, fle x y -> fle y z -> fle x z.
Proof.
  intros x y z. rewrite !fle_ext.
  intros [(F1 & F2 & L)|[[-> N]|[-> N]]] [(G1 & G2 & K)|[[E N2]|[E N2]]]; subst; try discriminate.
  - left. repeat split; auto. lra.
  - right; right. split; auto. destruct x; auto; discriminate.
  - right; left. split; auto. destruct z; auto; discriminate.
  - right; left; auto.
  - right; left; split; auto.
  - right; right; split; auto.
Qed.
Lemma fle_nan_l : forall x y : fl, fle x y -> is_nan x = false.
Proof. intros x y. rewrite fle_ext. intros [(H & _)|[[-> _]|[_ H]]]; auto. destruct x; auto; discriminate. Qed.
Lemma fle_nan_r : forall x y : fl, fle x y -> is_nan y = false.
Proof. intros x y. rewrite fle_ext. intros [(_ & H & _)|[[_ H]|[-> _]]]; auto. destruct y; auto; discriminate. Qed.
Lemma fle_upper : forall x y : fl, fle x y -> upper x -> upper y.
Proof. intros x y. rewrite fle_ext. intros [(_ & H & _)|[[-> _]|[-> _]]] K; simpl in *; try tauto. destruct y as [[]|[]| |]; simpl; auto; discriminate. Qed.
Lemma fle_pinf : forall x : fl, is_nan x = false -> fle x (B754_infinity false).
Proof. intros. apply fle_ext. right; right; auto. Qed.
Lemma pinf_fle : forall x : fl, fle (B754_infinity false) x -> x = B754_infinity false.
Proof. intros x. rewrite fle_ext. intros [(H & _)|[[H _]|[-> _]]]; auto; discriminate. Qed.
Lemma upper_nan : forall x : fl, upper x -> is_nan x = false.
Proof. intros [| | |]; simpl; tauto. Qed.
Lemma zero_upper : forall x : fl, fle (B754_zero false) x -> upper x.
Proof. intros x H. eapply fle_upper; [exact H|exact I]. Qed.
Lemma zero_R : forall x : fl, fle (B754_zero false) x -> is_finite x = true -> 0 <= B2R x.
Proof. intros x. rewrite fle_ext. intros [(_ & _ & H)|[[H _]|[-> _]]] Fx; auto; discriminate. Qed.
Lemma mag_zero : forall x : fl, magnitude x -> fle (B754_zero false) x.
Proof.
  intros x Hx. destruct (is_finite x) eqn:Fx.
  - apply fle_ext. left. repeat split; auto. apply (mag_R x Hx Fx).
  - destruct Hx as [A N]. destruct x as [[]|[]| |]; try discriminate. reflexivity.
Qed.

(** Sum of a number that is not -infinity and a magnitude. *)
Lemma plus_cases : forall x y : fl, upper x -> magnitude y ->
  let s := Bplus mode_NE x y in
  ((x = B754_infinity false \/ y = B754_infinity false) /\ s = B754_infinity false) \/
  (is_finite x = true /\ is_finite y = true /\ is_finite s = true /\ B2R s = rnd (B2R x + B2R y)) \/
  (is_finite x = true /\ is_finite y = true /\ s = B754_infinity false /\ bpow radix2 emax <= rnd (B2R x + B2R y)).
Proof.
  intros x y Ux My s. pose proof My as [Ay Ny].
  destruct (is_finite x) eqn:Fx; destruct (is_finite y) eqn:Fy.
  - right. pose proof (Bplus_correct prec emax Hp He mode_NE x y Fx Fy) as K. simpl round_mode in K. fold s in K.
    change (SpecFloat.fexp prec emax) with (FLT_exp (3 - emax - prec) prec) in K.
    destruct (Rlt_bool _ _) eqn:E.
    + left. tauto.
    + right. split; auto. split; auto. destruct K as [K1 K2].
      assert (Sy : Bsign y = false) by (rewrite <- Ay; destruct y; auto; discriminate).
      rewrite K2, Sy in K1. split.
      * unfold binary_overflow in K1. simpl in K1. destruct s; simpl in K1; try discriminate. congruence.
      * revert E. case Rlt_bool_spec; [discriminate|]. intros H _.
        assert (L : B2R x <= rnd (B2R x + B2R y)).
        { apply (rnd_ge prec emax Hp). pose proof (mag_R y My Fy). lra. }
        pose proof (abs_B2R_lt_emax prec emax x) as B. apply Rabs_def2 in B.
        revert H. unfold Rabs. destruct (Rcase_abs _); intros H; lra.
  - left. assert (y = B754_infinity false) as Ey by (destruct y as [[]|[]| |]; try discriminate; auto).
    split; auto. unfold s. rewrite Ey. destruct x as [[]|[]| |]; try discriminate; reflexivity.
  - left. assert (x = B754_infinity false) as Ex by (destruct x as [[]|[]| |]; try discriminate; auto; destruct Ux).
    split; auto. unfold s. rewrite Ex. destruct y as [[]|[]| |]; try discriminate; reflexivity.
  - left. assert (x = B754_infinity false) as Ex by (destruct x as [[]|[]| |]; try discriminate; auto; destruct Ux).
    split; auto. unfold s. rewrite Ex. destruct y as [[]|[]| |]; try discriminate; reflexivity.
Qed.
Lemma plus_upper : forall x y : fl, upper x -> magnitude y -> upper (Bplus mode_NE x y).
Proof.
  intros x y Ux My. destruct (plus_cases x y Ux My) as [[_ ->]|[(_ & _ & H & _)|(_ & _ & -> & _)]]; simpl; auto.
  destruct (Bplus _ _ _) as [[]|[]| |]; simpl; auto; discriminate.
Qed.
Lemma upper_pinf : forall x : fl, upper x -> fle x (B754_infinity false).
Proof. intros. apply fle_pinf, upper_nan; auto. Qed.
Lemma plus_mono : forall x y x' y' : fl, upper x -> magnitude y -> magnitude y' -> fle x x' -> fle y y' ->
  fle (Bplus mode_NE x y) (Bplus mode_NE x' y').
Proof.
  intros x y x' y' Ux My My' Lx Ly.
  assert (Ux' : upper x') by (eapply fle_upper; eauto).
  pose proof (plus_upper x y Ux My) as U1.
  destruct (plus_cases x' y' Ux' My') as [[_ ->]|[(F1 & F2 & F3 & E)|(_ & _ & -> & _)]]; auto using upper_pinf.
  assert (Fx : is_finite x = true).
  { destruct x as [[]|[]| |]; auto; simpl in Ux; try tauto. rewrite (pinf_fle x') in F1; auto. }
  assert (Fy : is_finite y = true).
  { destruct My as [A N]. destruct y as [[]|[]| |]; auto; try discriminate. rewrite (pinf_fle y') in F2; auto. }
  apply fle_ext in Lx. destruct Lx as [(_ & _ & Lx)|[[-> _]|[-> _]]]; try discriminate.
  apply fle_ext in Ly. destruct Ly as [(_ & _ & Ly)|[[-> _]|[-> _]]]; try discriminate.
  assert (R : rnd (B2R x + B2R y) <= rnd (B2R x' + B2R y')) by (apply round_le; auto with typeclass_instances; lra).
  destruct (plus_cases x y Ux My) as [[[->| ->] _]|[(_ & _ & G & E1)|(_ & _ & _ & G)]]; try discriminate.
  - apply fle_ext. left. repeat split; auto. lra.
  - exfalso. rewrite <- E in R. pose proof (abs_B2R_lt_emax prec emax (Bplus mode_NE x' y')) as B. apply Rabs_def2 in B. lra.
Qed.
Lemma plus_ge_l : forall x y : fl, upper x -> magnitude y -> fle x (Bplus mode_NE x y).
Proof.
  intros x y Ux My. destruct (plus_cases x y Ux My) as [[_ ->]|[(F1 & F2 & F3 & E)|(_ & _ & -> & _)]]; auto using upper_pinf.
  apply fle_ext. left. repeat split; auto. rewrite E. apply (rnd_ge prec emax Hp). pose proof (mag_R y My F2). lra.
Qed.
Lemma plus_ge_r : forall x y : fl, fle (B754_zero false) x -> magnitude y -> fle y (Bplus mode_NE x y).
Proof.
  intros x y Zx My. pose proof (zero_upper x Zx) as Ux. 
  destruct (plus_cases x y Ux My) as [[_ ->]|[(F1 & F2 & F3 & E)|(_ & _ & -> & _)]]; try (apply fle_pinf; apply My).
  apply fle_ext. left. repeat split; auto. rewrite E. apply (rnd_ge prec emax Hp). pose proof (zero_R x Zx F1). lra.
Qed.

Implicit Types (g h : nat -> fl).
Lemma fsum_upper : forall n (s : fl) g, upper s -> (forall i, (i < n)%nat -> magnitude (g i)) -> upper (fsum s n g).
Proof. induction n as [|n IH]; intros s g Us Hg; [exact Us|]. rewrite fsum_S. apply plus_upper; auto. Qed.
Lemma fsum_mono : forall n (s s' : fl) g h, upper s -> fle s s' ->
  (forall i, (i < n)%nat -> magnitude (g i) /\ magnitude (h i) /\ fle (g i) (h i)) -> fle (fsum s n g) (fsum s' n h).
Proof.
  induction n as [|n IH]; intros s s' g h Us Ls H; [exact Ls|]. rewrite !fsum_S.
  destruct (H n ltac:(lia)) as (A & B & C). apply plus_mono; auto. apply fsum_upper; auto. intros i Hi. apply H; lia.
Qed.
Lemma fsum_ge_init : forall n (s : fl) g, upper s -> (forall i, (i < n)%nat -> magnitude (g i)) -> fle s (fsum s n g).
Proof.
  induction n as [|n IH]; intros s g Us Hg; [apply fle_refl, upper_nan; auto|]. rewrite fsum_S.
  eapply fle_trans; [apply (IH s g); auto|]. apply plus_ge_l; auto. apply fsum_upper; auto.
Qed.
Lemma fsum_ge : forall n (s : fl) g, fle (B754_zero false) s -> (forall i, (i < n)%nat -> magnitude (g i)) ->
  forall i, (i < n)%nat -> fle (g i) (fsum s n g).
Proof.
  induction n as [|n IH]; intros s g Zs Hg i Hi; [lia|]. rewrite fsum_S.
  pose proof (zero_upper s Zs) as Us.
  assert (Un : upper (fsum s n g)) by (apply fsum_upper; auto).
  destruct (Nat.eq_dec i n) as [->|N].
  - apply plus_ge_r; auto. eapply fle_trans; [exact Zs|]. apply fsum_ge_init; auto.
  - eapply fle_trans; [apply (IH s g); auto; lia|]. apply plus_ge_l; auto.
Qed.
Lemma fzero_ext : forall x : fl, fzero x <-> exists s, x = B754_zero s.
Proof.
  intros x. unfold fzero. split.
  - destruct x as [s|[]| |[] mm ee B]; try discriminate; eauto.
  - intros [s ->]. destruct s; reflexivity.
Qed.
Lemma fle_zero : forall x y : fl, fle (B754_zero false) x -> fle x y -> fzero y -> fzero x.
Proof.
  intros x y Zx Lxy Zy. apply fzero_ext in Zy. destruct Zy as [sy ->]. apply fle_ext in Lxy.
  destruct Lxy as [(F1 & _ & L)|[[-> _]|[H _]]]; try discriminate.
  pose proof (zero_R x Zx F1) as L0. simpl in L. assert (E : B2R x = 0) by lra.
  destruct x as [s|s| |s mm ee B]; try discriminate; [apply fzero_ext; eauto|].
  exfalso. simpl in E. apply eq_0_F2R in E. destruct s; discriminate.
Qed.
Lemma fsum_zero : forall n (s : fl) g, fle (B754_zero false) s -> (forall i, (i < n)%nat -> magnitude (g i)) ->
  (fzero (fsum s n g) <-> fzero s /\ forall i, (i < n)%nat -> fzero (g i)).
Proof.
  intros n s g Zs Hg. split.
  - intros H. split.
    + eapply fle_zero; [exact Zs| |exact H]. apply fsum_ge_init; auto. apply zero_upper; auto.
    + intros i Hi. eapply fle_zero; [apply mag_zero; auto| |exact H]. apply fsum_ge; auto.
  - intros [Z1 Z2]. clear Zs Hg. induction n as [|n IH]; [exact Z1|]. rewrite fsum_S.
    specialize (IH ltac:(auto)). apply fzero_ext in IH. destruct IH as [s1 E1]. rewrite E1.
    specialize (Z2 n ltac:(lia)). apply fzero_ext in Z2. destruct Z2 as [s2 E2]. rewrite E2. destruct s1, s2; reflexivity.
Qed.

(** Largest of the lines *)
Lemma max_upper : forall x y : fl, is_nan x = false -> is_nan y = false ->
  fle x (@std_max F x y : fl) /\ fle y (@std_max F x y : fl) /\ ((@std_max F x y : fl) = x \/ (@std_max F x y : fl) = y).
Proof.
  intros x y Nx Ny. unfold std_max. change (@rltb F x y) with (Bltb x y).
  assert (T : Bltb x y = true -> fle x y).
  { unfold fle, Bltb, Bleb, SpecFloat.SFltb, SpecFloat.SFleb. destruct (SpecFloat.SFcompare _ _) as [[]|]; auto; discriminate. }
  assert (T2 : Bltb x y = false -> fle y x).
  { destruct (is_finite x) eqn:Fx; destruct (is_finite y) eqn:Fy.
    - rewrite (Bltb_R prec emax x y Fx Fy). destruct (Rlt_dec _ _); [discriminate|]. intros _. apply fle_ext. left. repeat split; auto. lra.
    - intros H. apply fle_ext. destruct y as [[]|[]| |]; try discriminate; [right; left; auto|].
      destruct x as [[]|[]| |[]]; discriminate.
    - intros H. apply fle_ext. destruct x as [[]|[]| |]; try discriminate; [|right; right; auto].
      destruct y as [[]|[]| |[]]; discriminate.
    - intros H. destruct x as [[]|[]| |], y as [[]|[]| |]; try discriminate; reflexivity. }
  destruct (Bltb x y) eqn:C; repeat split; auto using fle_refl.
Qed.
Lemma lmax_ge : forall n (init : fl) h, is_nan init = false -> (forall i, (i < n)%nat -> is_nan (h i) = false) ->
  is_nan (lmax init n h) = false /\ fle init (lmax init n h) /\ (forall i, (i < n)%nat -> fle (h i) (lmax init n h)) /\
  (lmax init n h = init \/ exists i, (i < n)%nat /\ lmax init n h = h i).
Proof.
  induction n as [|n IH]; intros init h Ni Hh.
  - repeat split; auto using fle_refl. intros; lia.
  - destruct (IH init h Ni ltac:(auto)) as (I1 & I2 & I3 & I4). rewrite lmax_S.
    destruct (max_upper (h n) (lmax init n h) (Hh n ltac:(lia)) I1) as (K1 & K2 & K3).
    split. { apply (fle_nan_r _ _ K1). } split. { eapply fle_trans; eauto. } split.
    + intros i Hi. destruct (Nat.eq_dec i n) as [->|]; auto. eapply fle_trans; [apply (I3 i); lia|exact K2].
    + destruct K3 as [->| ->]; [right; exists n; auto|]. destruct I4 as [->|(i & Hi & ->)]; auto. right. exists i. auto.
Qed.
Lemma lmax_least : forall n (init : fl) h z, fle init z -> (forall i, (i < n)%nat -> fle (h i) z) -> fle (lmax init n h) z.
Proof.
  intros n init h z Hi Hh.
  destruct (lmax_ge n init h (fle_nan_l _ _ Hi)) as (_ & _ & _ & [->|(i & Hlt & ->)]); auto.
  intros i Hlt. apply (fle_nan_l _ z). auto.
Qed.

Definition lines (n k : nat) (b : nat -> nat -> fl) (init : fl) : fl :=
  if ((n =? 0) || (k =? 0))%nat then init
  else if ((n =? 1) && (k =? 1))%nat then fsum init 1 (fun _ => b 0 0)%nat
  else lmax init n (fun i => fsum init k (b i)).
Lemma lines_one : forall b init, upper init -> magnitude (b 0 0)%nat ->
  fle (fsum init 1 (fun _ => b 0 0)%nat) (lmax init 1 (fun i => fsum init 1 (b i))) /\
  fle (lmax init 1 (fun i => fsum init 1 (b i))) (fsum init 1 (fun _ => b 0 0)%nat).
Proof.
  intros b init Ui Hb.
  assert (N : forall i, (i < 1)%nat -> is_nan (fsum init 1 (b i)) = false).
  { intros i Hi. replace i with 0%nat by lia. apply upper_nan, fsum_upper; auto. intros j Hj. replace j with 0%nat by lia. auto. }
  destruct (lmax_ge 1 init (fun i => fsum init 1 (b i)) (upper_nan _ Ui) N) as (_ & _ & K & _).
  split; [apply (K 0%nat); lia|]. apply lmax_least.
  - apply (fsum_ge_init 1 init (fun _ => b 0 0)%nat); auto.
  - intros i Hi. replace i with 0%nat by lia. apply fle_refl, upper_nan. apply (fsum_upper 1 init (b 0%nat)); auto.
    intros j Hj. replace j with 0%nat by lia. auto.
Qed.
Lemma lines_bounds : forall n k b init, fle (B754_zero false) init ->
  (forall i j, (i < n)%nat -> (j < k)%nat -> magnitude (b i j)) ->
  fle init (lines n k b init) /\ (forall i j, (i < n)%nat -> (j < k)%nat -> fle (b i j) (lines n k b init)) /\
  (fzero (lines n k b init) <-> fzero init /\ forall i j, (i < n)%nat -> (j < k)%nat -> fzero (b i j)).
Proof.
  intros n k b init Zi Hb. pose proof (zero_upper _ Zi) as Ui. unfold lines.
  destruct (Nat.eqb_spec n 0) as [->|N0]. { cbn [orb]. split; [apply fle_refl, upper_nan; auto|]. split; [lia|]. split; [split; auto; lia|tauto]. }
  destruct (Nat.eqb_spec k 0) as [->|K0]. { cbn [orb]. split; [apply fle_refl, upper_nan; auto|]. split; [lia|]. split; [split; auto; lia|tauto]. }
  cbn [orb]. destruct ((n =? 1)%nat && (k =? 1)%nat) eqn:E.
  { apply andb_prop in E. destruct E as [E1 E2]. apply Nat.eqb_eq in E1, E2. subst n k.
    assert (H0 : forall i, (i < 1)%nat -> magnitude (b 0 0)%nat) by (intros; apply Hb; lia).
    split; [apply (fsum_ge_init 1 init (fun _ => b 0 0)%nat); auto|].
    split. { intros i j Hi Hj. replace i with 0%nat by lia. replace j with 0%nat by lia. apply (fsum_ge 1 init (fun _ => b 0 0)%nat) with (i := 0%nat); auto. }
    rewrite (fsum_zero 1 init (fun _ => b 0 0)%nat Zi H0). split; intros [Z1 Z2]; split; auto.
    intros i j Hi Hj. replace i with 0%nat by lia. replace j with 0%nat by lia. apply (Z2 0%nat); lia. }
  assert (Nl : forall i, (i < n)%nat -> is_nan (fsum init k (b i)) = false) by (intros; apply upper_nan, fsum_upper; auto).
  destruct (lmax_ge n init (fun i => fsum init k (b i)) (upper_nan _ Ui) Nl) as (L1 & L2 & L3 & L4).
  split; auto. split.
  { intros i j Hi Hj. eapply fle_trans; [|apply (L3 i Hi)]. apply fsum_ge; auto. }
  split.
  - intros Z. split; [eapply fle_zero; eauto|]. intros i j Hi Hj.
    eapply fle_zero; [apply mag_zero; auto| |exact Z]. eapply fle_trans; [|apply (L3 i Hi)]. apply fsum_ge; auto.
  - intros [Z1 Z2]. destruct L4 as [->|(i & Hi & ->)]; auto. apply fsum_zero; auto.
Qed.
Lemma lines_mono : forall n k b b' init init', upper init -> fle init init' ->
  (forall i j, (i < n)%nat -> (j < k)%nat -> magnitude (b i j) /\ magnitude (b' i j) /\ fle (b i j) (b' i j)) ->
  fle (lines n k b init) (lines n k b' init').
Proof.
  intros n k b b' init init' Ui Li Hb. unfold lines.
  destruct (((n =? 0) || (k =? 0))%nat) eqn:E0; auto.
  apply orb_false_iff in E0. destruct E0 as [E01 E02]. apply Nat.eqb_neq in E01, E02.
  assert (Ui' : upper init') by (eapply fle_upper; eauto).
  destruct ((n =? 1)%nat && (k =? 1)%nat) eqn:E.
  { apply fsum_mono; auto. intros; apply Hb; lia. }
  assert (Nl : forall i, (i < n)%nat -> is_nan (fsum init' k (b' i)) = false) by (intros; apply upper_nan, fsum_upper; auto; intros; apply Hb; auto).
  destruct (lmax_ge n init' (fun i => fsum init' k (b' i)) (upper_nan _ Ui') Nl) as (L1 & L2 & L3 & L4).
  apply lmax_least; [eapply fle_trans; eauto|]. intros i Hi. eapply fle_trans; [|apply (L3 i Hi)].
  apply fsum_mono; auto.
Qed.
End Pf.

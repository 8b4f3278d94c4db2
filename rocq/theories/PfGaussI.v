(** Sums and products of complex integers are exact in floating point as long as the sizes have no more than [prec] digits. *)
From Coq Require Import List Arith ZArith Reals Lia Bool.
From Flocq Require Import Core.Core IEEE754.BinarySingleNaN.
From Verif Require Import Scalar Spec SpecI SpecExact SpecGauss Ieee IeeeC PfExactI PfFusedI PfIntSolve.
Import ListNotations.
Set Implicit Arguments.

Section Gauss.
Variables prec emax : Z.
Context (Hp : FLX.Prec_gt_0 prec) (He : Prec_lt_emax prec emax).
Variables recover cdiv : cfl prec emax -> cfl prec emax -> cfl prec emax.
Notation C := (ieee_c prec emax Hp He recover cdiv).
Notation fl := (cfl prec emax).

Definition exc (x : fl) (z : gauss) (B : Z) : Prop := (size z <= B)%Z /\ (fits_in prec B -> gauss_valued x z).
Lemma exc_in : forall x z, gauss_valued x z -> exc x z (size z).
Proof. intros; split; auto; lia. Qed.
Lemma exc_zero : exc (zero : C) (zero : gauss) 0.
Proof. split; [unfold size; simpl; lia|]. intros _. split; split; auto. Qed.
Lemma fin_nan : forall x : binary_float prec emax, is_finite x = true -> is_nan x = false.
Proof. intros [| | |]; simpl; auto; discriminate. Qed.
Lemma exc_mul : forall (x y : C) (z w : gauss) b c, gauss_valued x z -> gauss_valued y w -> b = size z -> c = size w -> exc (mul x y : C) (mul z w) (b * c).
Proof.
  intros [x1 x2] [y1 y2] [z1 z2] [w1 w2] b c [X1 X2] [Y1 Y2] -> ->. unfold exc, fits_in, gauss_valued, size in *. cbn [fst snd mul gauss] in *.
  assert (E : ((Z.abs z1 + Z.abs z2) * (Z.abs w1 + Z.abs w2) = Z.abs (z1 * w1) + Z.abs (z2 * w2) + (Z.abs (z1 * w2) + Z.abs (z2 * w1)))%Z) by (rewrite !Z.abs_mul; ring).
  rewrite E. split; [lia|]. intros K. cbn [mul ieee_c]. unfold cmul, cmul_plain. cbn [fst snd].
  assert (P1 : int_valued (Bminus mode_NE (Bmult mode_NE x1 y1) (Bmult mode_NE x2 y2)) (z1 * w1 - z2 * w2)) by (apply int_sub; [apply int_mul; auto; lia|apply int_mul; auto; lia|lia]).
  assert (P2 : int_valued (Bplus mode_NE (Bmult mode_NE x1 y2) (Bmult mode_NE x2 y1)) (z1 * w2 + z2 * w1)) by (apply int_add; [apply int_mul; auto; lia|apply int_mul; auto; lia|lia]).
  rewrite (fin_nan _ (proj1 P1)). simpl. auto.
Qed.
Lemma exc_add : forall (x y : C) (z w : gauss) B D, exc x z B -> exc y w D -> exc (add x y : C) (add z w) (B + D).
Proof.
  intros [x1 x2] [y1 y2] [z1 z2] [w1 w2] B D [H1 H2] [H3 H4]. unfold exc, fits_in, gauss_valued, size in *. cbn [fst snd add gauss ieee_c cadd] in *.
  split; [lia|]. intros K. destruct (H2 ltac:(lia)), (H4 ltac:(lia)). split; apply int_add; auto; lia.
Qed.
Lemma exc_sum : forall n (s : C) (z : gauss) B (f : nat -> C) (t : nat -> gauss) b, exc s z B -> (forall k, k < n -> exc (f k) (t k) (b k)) ->
  exc (sum_from s 0 n f : C) (sum_from z 0 n t) (B + zsum n b).
Proof.
  induction n as [|n IH]; intros s z B f t b Hs Hf; [unfold sum_from; cbn [seq fold_left zsum]; rewrite Z.add_0_r; auto|].
  unfold sum_from. rewrite seq_S, !fold_left_app. cbn [fold_left zsum Nat.add]. rewrite Z.add_assoc. apply exc_add; [apply IH; auto|apply Hf; lia].
Qed.
Lemma exc_big : forall n (f : nat -> C) (t : nat -> gauss) b, (forall k, k < n -> exc (f k) (t k) (b k)) -> exc (bigsum n f : C) (bigsum n t) (zsum n b).
Proof. intros. change (zsum n b) with (0 + zsum n b)%Z. apply exc_sum; auto. apply exc_zero. Qed.

Lemma gconj : forall (x : C) (z : gauss), gauss_valued (x : fl) z -> gauss_valued (conj x : fl) (conj z).
Proof. intros [x1 x2] [z1 z2] [H1 H2]. split; [exact H1|]. cbn. apply int_opp. exact H2. Qed.
Lemma gre : forall (x : C) (z : gauss), gauss_valued (x : fl) z -> gauss_valued (re x : fl) (re z).
Proof. intros [x1 x2] [z1 z2] [H1 H2]. split; [exact H1|]. split; auto. Qed.
Lemma size_conj : forall z : gauss, size (conj z) = size z.
Proof. intros [z1 z2]. unfold size; simpl. lia. Qed.
Lemma gsym : forall n t (a : nat -> nat -> C) (p : nat -> nat -> gauss), (forall i j, i < n -> j < n -> in_tri t i j -> gauss_valued (a i j : fl) (p i j)) ->
  forall i j, i < n -> j < n -> gauss_valued (sym_of t a i j : fl) (sym_of t p i j).
Proof. intros n t a p K i j Hi Hj. unfold sym_of, in_tri_b. destruct t; destruct (Nat.leb_spec i j), (Nat.leb_spec j i); apply K; simpl; auto; lia. Qed.
Lemma gherm : forall n t (a : nat -> nat -> C) (p : nat -> nat -> gauss), (forall i j, i < n -> j < n -> in_tri t i j -> gauss_valued (a i j : fl) (p i j)) ->
  forall i j, i < n -> j < n -> gauss_valued (herm_of t a i j : fl) (herm_of t p i j).
Proof.
  intros n t a p K i j Hi Hj. unfold herm_of, in_tri_b. destruct (Nat.eqb_spec i j) as [->|N]; [apply gre, K; auto; destruct t; simpl; lia|].
  destruct t; destruct (Nat.leb_spec i j), (Nat.leb_spec j i); try (apply gconj); apply K; simpl; auto; lia.
Qed.
End Gauss.

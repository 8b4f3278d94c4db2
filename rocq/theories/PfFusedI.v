(** Sums and products of integers are exact in floating point however multiply-adds are contracted. *)
From Coq Require Import List Arith ZArith Reals Lia Bool Lra Permutation.
From Flocq Require Import Core.Core IEEE754.BinarySingleNaN.
From Verif Require Import Scalar Spec SpecI SpecSub SpecInp SpecExact SpecFma SpecTrace SpecFused Ieee Fma Trace Sums PfBlas3 PfMonoI PfExactI.
Import ListNotations.
Set Implicit Arguments.

Section Fused.
Variables prec emax : Z.
Context (Hp : FLX.Prec_gt_0 prec) (He : Prec_lt_emax prec emax).
Notation num := (binary_float prec emax).
Notation fl := (poss prec emax).
Notation O := (fma_ops prec emax Hp He).
Notation rnd := (Generic_fmt.round radix2 (SpecFloat.fexp prec emax) (round_mode mode_NE)).

Lemma int_fma : forall (x y s : num) z w v, int_valued x z -> int_valued y w -> int_valued s v -> (Z.abs (z * w + v) <= 2 ^ prec)%Z ->
  int_valued (Bfma mode_NE x y s) (z * w + v).
Proof.
  intros x y s z w v [Fx Ex] [Fy Ey] [Fs Es] Hb. destruct (@int_rnd prec emax Hp He _ Hb) as [R1 R2].
  pose proof (Bfma_correct prec emax Hp He mode_NE x y s Fx Fy Fs) as K. cbv zeta in K. rewrite Ex, Ey, Es, <- mult_IZR, <- plus_IZR in K.
  match type of K with context [Rlt_bool (Rabs ?r)] => change r with (rnd (IZR (z * w + v))) in K end. rewrite R1, Rlt_bool_true in K by auto.
  split; tauto.
Qed.
Lemma surely_exactly : forall (x : num) z, int_valued x z -> surely (exactly x) z.
Proof. intros x z K. split; [exists x; reflexivity|]. split; [intros v <-; auto|intros ? ? []]. Qed.
Lemma surely_plain : forall (x : num) a z, may_be x a -> surely a z -> int_valued x z.
Proof. intros x a z K (_ & V & _). auto. Qed.
Lemma surely_traced : forall (x : traced prec emax) a z, may_be_traced x a -> surely a z -> int_valued (value x) z.
Proof. intros x a z [K _] (_ & V & _). auto. Qed.
Lemma surely_mul : forall (x y : O) z w, surely (x : fl) z -> surely (y : fl) w -> (Z.abs (z * w) <= 2 ^ prec)%Z -> surely (mul x y : fl) (z * w).
Proof.
  intros x y z w (E1 & V1 & P1) (E2 & V2 & P2) Hb. destruct E1 as [a E1], E2 as [b E2]. simpl. unfold c_mul. split; [|split]; simpl.
  - exists (Bmult mode_NE a b), a, b; auto.
  - intros v (c & d & H1 & H2 & ->). apply int_mul; auto.
  - intros c d [H1 H2]. exists z, w. auto.
Qed.
Lemma surely_add : forall (x y : O) z w, surely (x : fl) z -> surely (y : fl) w -> (Z.abs (z + w) <= 2 ^ prec)%Z -> surely (add x y : fl) (z + w).
Proof.
  intros x y z w (E1 & V1 & P1) (E2 & V2 & P2) Hb. destruct E1 as [a E1], E2 as [b E2]. simpl. unfold c_add. split; [|split]; simpl.
  - exists (Bplus mode_NE a b). left. exists a, b; auto.
  - intros v [(c & d & H1 & H2 & ->)|[(c & c' & d & H1 & H2 & ->)|(c & d & d' & H1 & H2 & ->)]].
    + apply int_add; auto.
    + destruct (P1 _ _ H1) as (u1 & u2 & I1 & I2 & <-). apply int_fma; auto.
    + destruct (P2 _ _ H2) as (u1 & u2 & I1 & I2 & <-). rewrite Z.add_comm. apply int_fma; auto. rewrite Z.add_comm. auto.
  - intros ? ? [].
Qed.
(** z is within B, and x is z provided that B has no more than [prec] digits *)
Definition ex (x : fl) (z B : Z) : Prop := (Z.abs z <= B)%Z /\ (fits_in prec B -> surely x z).
Lemma ex_in : forall x z, surely x z -> ex x z (Z.abs z).
Proof. intros; split; auto; lia. Qed.
Lemma ex_zero : ex (exactly (B754_zero false)) 0 0.
Proof. split; [lia|]. intros _. apply surely_exactly. split; auto. Qed.
Lemma ex_mul : forall (x y : O) z w, surely x z -> surely y w -> ex (mul x y) (z * w) (Z.abs (z * w)).
Proof. intros. split; [lia|]. intros. apply surely_mul; auto. Qed.
Lemma ex_add : forall (x y : O) z w B C, ex x z B -> ex y w C -> ex (add x y) (z + w) (B + C).
Proof. unfold ex, fits_in. intros x y z w B C [H1 H2] [H3 H4]. split; [lia|]. intros. apply surely_add; [apply H2|apply H4|]; lia. Qed.

Lemma ex_fold : forall l (s : O) z B (f : nat -> O) t b, ex s z B -> (forall k, In k l -> ex (f k) (t k) (b k)) ->
  ex (fold_left (fun s k => add s (f k)) l s) (z + lsum l t) (B + lsum l b).
Proof.
  induction l as [|j l IH]; intros s z B f t b Hs Hf; [cbn [lsum fold_right fold_left]; rewrite !Z.add_0_r; auto|]. cbn [fold_left].
  replace (z + lsum (j :: l) t)%Z with ((z + t j) + lsum l t)%Z by (unfold lsum; simpl; lia).
  replace (B + lsum (j :: l) b)%Z with ((B + b j) + lsum l b)%Z by (unfold lsum; simpl; lia).
  apply IH; [|intros; apply Hf; simpl; auto]. apply ex_add; auto. apply Hf; simpl; auto.
Qed.
Lemma ex_sum : forall (s : O) z B n (f : nat -> O) t b, ex s z B -> (forall k, k < n -> ex (f k) (t k) (b k)) ->
  ex (sum_from s 0 n f) (z + zsum n t) (B + zsum n b).
Proof. intros. unfold sum_from. rewrite <- !lsum_seq. apply ex_fold; auto. intros k Hk. apply in_seq in Hk. apply H0; lia. Qed.
Lemma ex_big : forall n (f : nat -> O) t b, (forall k, k < n -> ex (f k) (t k) (b k)) -> ex (bigsum n f) (zsum n t) (zsum n b).
Proof. intros. replace (zsum n t) with (0 + zsum n t)%Z by lia. replace (zsum n b) with (0 + zsum n b)%Z by lia. apply (@ex_sum (zero : O)); auto. apply ex_zero. Qed.
(** sums over part of the indices, the others contributing zero *)
Lemma ex_part : forall (s : O) z B l n (f : nat -> O) t b, ex s z B -> NoDup l -> (forall k, In k l -> k < n) ->
  (forall k, k < n -> ~ In k l -> t k = 0%Z /\ b k = 0%Z) -> (forall k, In k l -> ex (f k) (t k) (b k)) ->
  ex (fold_left (fun s k => add s (f k)) l s) (z + zsum n t) (B + zsum n b).
Proof.
  intros s z B l n f t b Hs ND Hl Hz Hf. rewrite <- (@lsum_cover l n t), <- (@lsum_cover l n b); auto; try (intros; apply Hz; auto). apply ex_fold; auto.
Qed.
(** ... and with the term of index i taken first, or added last *)
Lemma ex_first : forall (s : O) l n i (f : nat -> O) t b, i < n -> ex s (t i) (b i) -> NoDup (i :: l) -> (forall k, In k l -> k < n) ->
  (forall k, k < n -> ~ In k (i :: l) -> t k = 0%Z /\ b k = 0%Z) -> (forall k, In k l -> ex (f k) (t k) (b k)) ->
  ex (fold_left (fun s k => add s (f k)) l s) (zsum n t) (zsum n b).
Proof.
  intros s l n i f t b Hi Hs ND Hl Hz Hf. rewrite <- (@lsum_cover (i :: l) n t), <- (@lsum_cover (i :: l) n b); auto;
  try (intros k [<-|K]; auto); try (intros; apply Hz; auto). change (lsum (i :: l) t) with (t i + lsum l t)%Z. change (lsum (i :: l) b) with (b i + lsum l b)%Z.
  apply ex_fold; auto.
Qed.
Lemma ex_last : forall (v : O) l n i (f : nat -> O) t b, i < n -> ex v (t i) (b i) -> NoDup (i :: l) -> (forall k, In k l -> k < n) ->
  (forall k, k < n -> ~ In k (i :: l) -> t k = 0%Z /\ b k = 0%Z) -> (forall k, In k l -> ex (f k) (t k) (b k)) ->
  ex (add (fold_left (fun s k => add s (f k)) l (zero : O)) v) (zsum n t) (zsum n b).
Proof.
  intros v l n i f t b Hi Hs ND Hl Hz Hf. rewrite <- (@lsum_cover (i :: l) n t), <- (@lsum_cover (i :: l) n b); auto;
  try (intros k [<-|K]; auto); try (intros; apply Hz; auto).
  replace (lsum (i :: l) t) with ((0 + lsum l t) + t i)%Z by (unfold lsum; simpl; lia).
  replace (lsum (i :: l) b) with ((0 + lsum l b) + b i)%Z by (unfold lsum; simpl; lia).
  apply ex_add; auto. apply ex_fold; auto. apply ex_zero.
Qed.

(** matrices given by a triangle *)
Lemma sym_int : forall n t (a : nat -> nat -> O) p, symmetric_z p -> (forall i j, i < n -> j < n -> in_tri t i j -> surely (a i j : fl) (p i j)) ->
  forall i j, i < n -> j < n -> surely (sym_of t a i j : fl) (p i j).
Proof.
  intros n t a p S K i j Hi Hj. unfold sym_of, in_tri_b. destruct t; destruct (Nat.leb_spec i j), (Nat.leb_spec j i); try (apply K; simpl; auto; lia);
  rewrite S; apply K; simpl; auto; lia.
Qed.
Lemma herm_int : forall n t (a : nat -> nat -> O) p, symmetric_z p -> (forall i j, i < n -> j < n -> in_tri t i j -> surely (a i j : fl) (p i j)) ->
  forall i j, i < n -> j < n -> surely (herm_of t a i j : fl) (p i j).
Proof.
  intros n t a p S K i j Hi Hj. unfold herm_of, in_tri_b; simpl. destruct (Nat.eqb_spec i j) as [->|N]; [apply K; auto; destruct t; simpl; lia|].
  destruct t; destruct (Nat.leb_spec i j), (Nat.leb_spec j i); try (apply K; simpl; auto; lia); rewrite S; apply K; simpl; auto; lia.
Qed.
Lemma herm_raw_int : forall n t (a : nat -> nat -> O) p, symmetric_z p -> (forall i j, i < n -> j < n -> in_tri t i j -> surely (a i j : fl) (p i j)) ->
  forall i j, i < n -> j < n -> surely (herm_raw t a i j : fl) (p i j).
Proof.
  intros n t a p S K i j Hi Hj. unfold herm_raw, in_tri_b; simpl.
  destruct t; destruct (Nat.leb_spec i j), (Nat.leb_spec j i); try (apply K; simpl; auto; lia); rewrite S; apply K; simpl; auto; lia.
Qed.
Lemma herm_in : forall t (a : nat -> nat -> O) i j, in_tri t i j -> herm_of t a i j = a i j.
Proof.
  intros t a i j T. unfold herm_of, in_tri_b; simpl. destruct (Nat.eqb_spec i j) as [->|N]; auto.
  destruct t; simpl in T; destruct (Nat.leb_spec i j), (Nat.leb_spec j i); auto; lia.
Qed.
End Fused.

(** Sums and products of integers are exact in floating point as long as they have no more than [prec] digits. *)
From Coq Require Import List Arith ZArith Reals Lia Bool Lra Permutation.
From Flocq Require Import Core.Core IEEE754.BinarySingleNaN.
From Verif Require Import Scalar Spec SpecI SpecSub SpecInp SpecExact Ieee Sums PfBlas3 PfMonoI.
Import ListNotations.
Set Implicit Arguments.

Section Exact.
Variables prec emax : Z.
Context (Hp : FLX.Prec_gt_0 prec) (He : Prec_lt_emax prec emax).
Notation fl := (binary_float prec emax).
Notation O := (ieee_ops prec emax Hp He).
Notation rnd := (Generic_fmt.round radix2 (SpecFloat.fexp prec emax) (round_mode mode_NE)).

Lemma int_format : forall z, (Z.abs z <= 2 ^ prec)%Z -> generic_format radix2 (SpecFloat.fexp prec emax) (IZR z).
Proof.
  intros z Hz. pose proof Hp as P. pose proof He as E. unfold FLX.Prec_gt_0 in P. unfold Prec_lt_emax in E.
  apply (generic_format_FLT radix2 (SpecFloat.emin prec emax) prec). unfold SpecFloat.emin.
  destruct (Z.eq_dec (Z.abs z) (2 ^ prec)) as [Q|Q].
  - exists (Float radix2 (Z.sgn z) prec); [|change (Z.abs (Z.sgn z) < 2 ^ prec)%Z; assert (1 < 2 ^ prec)%Z by (apply Z.pow_gt_1; lia); clear - H; destruct z; simpl; lia|cbn [Fexp]; lia]. simpl.
    unfold F2R; simpl. rewrite <- (IZR_Zpower radix2) by lia. rewrite <- mult_IZR. f_equal. simpl. rewrite <- Q. symmetry. rewrite Z.mul_comm. apply Z.abs_sgn.
  - exists (Float radix2 z 0); [|change (Z.abs z < 2 ^ prec)%Z; lia|cbn [Fexp]; lia]. unfold F2R; simpl. ring.
Qed.
Lemma int_rnd : forall z, (Z.abs z <= 2 ^ prec)%Z -> rnd (IZR z) = IZR z /\ (Rabs (IZR z) < bpow radix2 emax)%R.
Proof.
  intros z Hz. pose proof Hp as P. pose proof He as E. unfold FLX.Prec_gt_0 in P. unfold Prec_lt_emax in E. split.
  - apply round_generic; [apply valid_rnd_round_mode|apply int_format; auto].
  - rewrite <- abs_IZR. eapply Rle_lt_trans; [apply IZR_le; exact Hz|]. change 2%Z with (radix_val radix2). rewrite IZR_Zpower by lia. apply bpow_lt; auto.
Qed.
Lemma int_add : forall (x y : fl) z w, int_valued x z -> int_valued y w -> (Z.abs (z + w) <= 2 ^ prec)%Z -> int_valued (Bplus mode_NE x y) (z + w).
Proof.
  intros x y z w [Fx Ex] [Fy Ey] Hb. destruct (int_rnd _ Hb) as [R1 R2]. destruct (@plus_val prec emax Hp He x y Fx Fy) as [V F];
  rewrite Ex, Ey, <- plus_IZR, ?R1 in *; auto. split; auto.
Qed.
Lemma int_mul : forall (x y : fl) z w, int_valued x z -> int_valued y w -> (Z.abs (z * w) <= 2 ^ prec)%Z -> int_valued (Bmult mode_NE x y) (z * w).
Proof.
  intros x y z w [Fx Ex] [Fy Ey] Hb. destruct (int_rnd _ Hb) as [R1 R2]. destruct (@mult_val prec emax Hp He x y Fx Fy) as [V F];
  rewrite Ex, Ey, <- mult_IZR, ?R1 in *; auto. split; auto.
Qed.

Lemma norm_int : forall z, (Z.abs z <= 2 ^ prec)%Z -> int_valued (binary_normalize prec emax Hp He mode_NE z 0 false) z.
Proof.
  intros z Hz. destruct (int_rnd _ Hz) as [R1 R2]. pose proof (binary_normalize_correct prec emax Hp He mode_NE z 0 false) as K.
  assert (E : F2R (Float radix2 z 0) = IZR z) by (unfold F2R; simpl; ring). cbv zeta in K. rewrite E in K.
  match type of K with context [Rlt_bool (Rabs ?r)] => change r with (rnd (IZR z)) in K end. rewrite R1, Rlt_bool_true in K by auto. split; tauto.
Qed.
(** z is within B, and x is z provided that B has no more than [prec] digits *)
Definition ex (x : fl) (z B : Z) : Prop := (Z.abs z <= B)%Z /\ (fits_in prec B -> int_valued x z).
Lemma ex_in : forall x z, int_valued x z -> ex x z (Z.abs z).
Proof. intros; split; auto; lia. Qed.
Lemma ex_zero : ex (B754_zero false) 0 0.
Proof. split; [lia|]. intros _. split; auto. Qed.
Lemma ex_mul : forall (x y : O) z w, int_valued x z -> int_valued y w -> ex (mul x y) (z * w) (Z.abs (z * w)).
Proof. intros. split; [lia|]. intros. simpl. apply int_mul; auto. Qed.
Lemma ex_add : forall (x y : O) z w B C, ex x z B -> ex y w C -> ex (add x y) (z + w) (B + C).
Proof. unfold ex, fits_in. intros x y z w B C [H1 H2] [H3 H4]. split; [lia|]. intros. simpl. apply int_add; [apply H2|apply H4|]; lia. Qed.

Definition lsum (l : list nat) (t : nat -> Z) : Z := fold_right (fun k s => t k + s)%Z 0%Z l.
Lemma ex_fold : forall l (s : O) z B (f : nat -> O) t b, ex s z B -> (forall k, In k l -> ex (f k) (t k) (b k)) ->
  ex (fold_left (fun s k => add s (f k)) l s) (z + lsum l t) (B + lsum l b).
Proof.
  induction l as [|j l IH]; intros s z B f t b Hs Hf; [cbn [lsum fold_right fold_left]; rewrite !Z.add_0_r; auto|]. cbn [fold_left].
  replace (z + lsum (j :: l) t)%Z with ((z + t j) + lsum l t)%Z by (unfold lsum; simpl; lia).
  replace (B + lsum (j :: l) b)%Z with ((B + b j) + lsum l b)%Z by (unfold lsum; simpl; lia).
  apply IH; [|intros; apply Hf; simpl; auto]. apply ex_add; auto. apply Hf; simpl; auto.
Qed.
Lemma lsum_app : forall l l' t, lsum (l ++ l') t = (lsum l t + lsum l' t)%Z.
Proof. induction l; simpl; intros; auto. unfold lsum in *. simpl. rewrite IHl. lia. Qed.
Lemma lsum_perm : forall l l' t, Permutation l l' -> lsum l t = lsum l' t.
Proof. intros l l' t K. induction K; unfold lsum in *; simpl; lia. Qed.
Lemma lsum_0 : forall l t, (forall k, In k l -> t k = 0%Z) -> lsum l t = 0%Z.
Proof. induction l; intros t K; auto. unfold lsum; simpl. fold (lsum l t). rewrite K by (simpl; auto). rewrite IHl; auto. intros; apply K; simpl; auto. Qed.
Lemma lsum_seq : forall n t, lsum (seq 0 n) t = zsum n t.
Proof. induction n; intros; auto. rewrite seq_S, lsum_app, IHn. unfold lsum; simpl. lia. Qed.
Lemma lsum_cover : forall l n t, NoDup l -> (forall k, In k l -> k < n) -> (forall k, k < n -> ~ In k l -> t k = 0%Z) -> lsum l t = zsum n t.
Proof.
  intros l n t ND Hl Hz. rewrite <- lsum_seq. set (r := filter (fun k => negb (if in_dec Nat.eq_dec k l then true else false)) (seq 0 n)).
  rewrite <- (@lsum_perm (l ++ r) (seq 0 n) t).
  - rewrite lsum_app. rewrite (@lsum_0 r); [lia|]. intros k Hk. apply filter_In in Hk. destruct Hk as [K1 K2]. apply in_seq in K1.
    apply Hz; [lia|]. destruct (in_dec Nat.eq_dec k l); [discriminate|auto].
  - apply NoDup_Permutation; [|apply seq_NoDup|].
    + assert (G : forall q, NoDup q -> (forall k, In k q -> ~ In k r) -> NoDup (q ++ r)).
      { induction q as [|a q IH]; simpl; intros Q1 Q2; [apply NoDup_filter, seq_NoDup|]. inversion Q1; subst. constructor; [|apply IH; auto].
        intros K. apply in_app_or in K. destruct K; auto. apply (Q2 a); auto. }
      apply G; auto. intros k K1 K2. apply filter_In in K2. destruct K2 as [_ K2]. destruct (in_dec Nat.eq_dec k l); [discriminate|auto].
    + intros k. rewrite in_app_iff. unfold r. rewrite filter_In, in_seq. split.
      * intros [K|[K _]]; [apply Hl in K; lia|lia].
      * intros K. destruct (in_dec Nat.eq_dec k l); [left; auto|right; split; [lia|auto]].
Qed.
Lemma ex_sum : forall (s : O) z B n (f : nat -> O) t b, ex s z B -> (forall k, k < n -> ex (f k) (t k) (b k)) ->
  ex (sum_from s 0 n f) (z + zsum n t) (B + zsum n b).
Proof. intros. unfold sum_from. rewrite <- !lsum_seq. apply ex_fold; auto. intros k Hk. apply in_seq in Hk. apply H0; lia. Qed.
Lemma ex_big : forall n (f : nat -> O) t b, (forall k, k < n -> ex (f k) (t k) (b k)) -> ex (bigsum n f) (zsum n t) (zsum n b).
Proof. intros. replace (zsum n t) with (0 + zsum n t)%Z by lia. replace (zsum n b) with (0 + zsum n b)%Z by lia. apply (@ex_sum (zero : O)); auto. apply ex_zero. Qed.
(** sums over part of the indices, the others contributing zero *)
Lemma ex_part : forall (s : O) z B l n (f : nat -> O) t b, ex s z B -> NoDup l -> (forall k, In k l -> k < n) ->
  (forall k, k < n -> ~ In k l -> t k = 0%Z /\ b k = 0%Z) -> (forall k, In k l -> ex (f k) (t k) (b k)) ->
  ex (fold_left (fun s k => add s (f k)) l s) (z + zsum n t) (B + zsum n b).
Proof.
  intros s z B l n f t b Hs ND Hl Hz Hf. rewrite <- (@lsum_cover l n t), <- (@lsum_cover l n b); auto; try (intros; apply Hz; auto). apply ex_fold; auto.
Qed.
(** ... and with the term of index i taken first, or added last *)
Lemma ex_first : forall (s : O) l n i (f : nat -> O) t b, i < n -> ex s (t i) (b i) -> NoDup (i :: l) -> (forall k, In k l -> k < n) ->
  (forall k, k < n -> ~ In k (i :: l) -> t k = 0%Z /\ b k = 0%Z) -> (forall k, In k l -> ex (f k) (t k) (b k)) ->
  ex (fold_left (fun s k => add s (f k)) l s) (zsum n t) (zsum n b).
Proof.
  intros s l n i f t b Hi Hs ND Hl Hz Hf. rewrite <- (@lsum_cover (i :: l) n t), <- (@lsum_cover (i :: l) n b); auto;
  try (intros k [<-|K]; auto); try (intros; apply Hz; auto). change (lsum (i :: l) t) with (t i + lsum l t)%Z. change (lsum (i :: l) b) with (b i + lsum l b)%Z.
  apply ex_fold; auto.
Qed.
Lemma ex_last : forall (v : O) l n i (f : nat -> O) t b, i < n -> ex v (t i) (b i) -> NoDup (i :: l) -> (forall k, In k l -> k < n) ->
  (forall k, k < n -> ~ In k (i :: l) -> t k = 0%Z /\ b k = 0%Z) -> (forall k, In k l -> ex (f k) (t k) (b k)) ->
  ex (add (fold_left (fun s k => add s (f k)) l (zero : O)) v) (zsum n t) (zsum n b).
Proof.
  intros v l n i f t b Hi Hs ND Hl Hz Hf. rewrite <- (@lsum_cover (i :: l) n t), <- (@lsum_cover (i :: l) n b); auto;
  try (intros k [<-|K]; auto); try (intros; apply Hz; auto).
  replace (lsum (i :: l) t) with ((0 + lsum l t) + t i)%Z by (unfold lsum; simpl; lia).
  replace (lsum (i :: l) b) with ((0 + lsum l b) + b i)%Z by (unfold lsum; simpl; lia).
  apply ex_add; auto. apply ex_fold; auto. apply ex_zero.
Qed.

(** matrices given by a triangle *)
Lemma sym_int : forall n t (a : nat -> nat -> O) p, symmetric_z p -> (forall i j, i < n -> j < n -> in_tri t i j -> int_valued (a i j : fl) (p i j)) ->
  forall i j, i < n -> j < n -> int_valued (sym_of t a i j : fl) (p i j).
Proof.
  intros n t a p S K i j Hi Hj. unfold sym_of, in_tri_b. destruct t; destruct (Nat.leb_spec i j), (Nat.leb_spec j i); try (apply K; simpl; auto; lia);
  rewrite S; apply K; simpl; auto; lia.
Qed.
Lemma herm_int : forall n t (a : nat -> nat -> O) p, symmetric_z p -> (forall i j, i < n -> j < n -> in_tri t i j -> int_valued (a i j : fl) (p i j)) ->
  forall i j, i < n -> j < n -> int_valued (herm_of t a i j : fl) (p i j).
Proof.
  intros n t a p S K i j Hi Hj. unfold herm_of, in_tri_b; simpl. destruct (Nat.eqb_spec i j) as [->|N]; [apply K; auto; destruct t; simpl; lia|].
  destruct t; destruct (Nat.leb_spec i j), (Nat.leb_spec j i); try (apply K; simpl; auto; lia); rewrite S; apply K; simpl; auto; lia.
Qed.
Lemma herm_raw_int : forall n t (a : nat -> nat -> O) p, symmetric_z p -> (forall i j, i < n -> j < n -> in_tri t i j -> int_valued (a i j : fl) (p i j)) ->
  forall i j, i < n -> j < n -> int_valued (herm_raw t a i j : fl) (p i j).
Proof.
  intros n t a p S K i j Hi Hj. unfold herm_raw, in_tri_b; simpl.
  destruct t; destruct (Nat.leb_spec i j), (Nat.leb_spec j i); try (apply K; simpl; auto; lia); rewrite S; apply K; simpl; auto; lia.
Qed.
Lemma herm_in : forall t (a : nat -> nat -> O) i j, in_tri t i j -> herm_of t a i j = a i j.
Proof.
  intros t a i j T. unfold herm_of, in_tri_b; simpl. destruct (Nat.eqb_spec i j) as [->|N]; auto.
  destruct t; simpl in T; destruct (Nat.leb_spec i j), (Nat.leb_spec j i); auto; lia.
Qed.
End Exact.

(** Proofs for C72 and C73. *)
From Coq Require Import List Arith Lia Bool.
From Verif Require Import View Static LayoutG SpecM.
Import ListNotations.

Lemma transpose_extents_ok : forall e, stored_ok e ->
  stored_ok (transpose_extents e) /\ st0 (transpose_extents e) = st1 e /\ st1 (transpose_extents e) = st0 e /\
  extent (transpose_extents e) false = extent e true /\ extent (transpose_extents e) true = extent e false.
Proof.
  intros [s0 s1 d] H. unfold stored_ok, transpose_extents, extent in *; cbn in *.
  destruct s0, s1; cbn in *; auto.
Qed.
Lemma transpose_extents_twice : forall e, stored_ok e -> transpose_extents (transpose_extents e) = e.
Proof.
  intros [s0 s1 d] H. unfold stored_ok, transpose_extents, extent in *; cbn in *.
  destruct s0, s1; cbn in *.
  - destruct d; [reflexivity|discriminate].
  - destruct d as [|a [|b d]]; try discriminate; reflexivity.
  - destruct d as [|a [|b d]]; try discriminate; reflexivity.
  - destruct d as [|a [|b [|c d]]]; try discriminate; reflexivity.
Qed.
Lemma check2_agrees : forall a b n, agrees a n -> agrees b n -> check2 a b = true.
Proof.
  intros [m|] [k|] n Ha Hb; cbn; auto. apply Nat.eqb_eq.
  rewrite <- (Ha m eq_refl). exact (Hb k eq_refl).
Qed.
Lemma check2_static : forall m n, check2 (Some m) (Some n) = true <-> m = n.
Proof. intros. cbn. apply Nat.eqb_eq. Qed.
Lemma valid_1 : forall x y n, equal_lengths [x; y] n ->
  dot_compiles x y = true /\ givens_compiles x y = true /\ copy_1_compiles x y = true /\ swap_1_compiles x y = true.
Proof.
  intros x y n H. assert (check2 x y = true).
  { apply check2_agrees with n; apply H; cbn; auto. }
  repeat split; assumption.
Qed.
Lemma valid_2 : forall x y n0 n1, equal_lengths [fst x; fst y] n0 -> equal_lengths [snd x; snd y] n1 ->
  copy_2_compiles x y = true /\ swap_2_compiles x y = true.
Proof.
  intros x y n0 n1 H0 H1.
  assert (check2 (fst x) (fst y) = true) as E0 by (apply check2_agrees with n0; apply H0; cbn; auto).
  assert (check2 (snd x) (snd y) = true) as E1 by (apply check2_agrees with n1; apply H1; cbn; auto).
  unfold copy_2_compiles, swap_2_compiles. rewrite E0, E1. auto.
Qed.
Lemma valid_add_1 : forall x y z n, equal_lengths [x; y; z] n -> add_1_compiles x y z = true.
Proof.
  intros x y z n H. unfold add_1_compiles.
  rewrite !andb_true_iff; repeat split; apply check2_agrees with n; apply H; cbn; auto.
Qed.
Lemma valid_add_2 : forall x y z n0 n1, equal_lengths [fst x; fst y; fst z] n0 -> equal_lengths [snd x; snd y; snd z] n1 ->
  add_2_compiles x y z = true.
Proof.
  intros x y z n0 n1 H0 H1. unfold add_2_compiles.
  rewrite !andb_true_iff; repeat split; ((apply check2_agrees with n0; apply H0; cbn; solve [auto]) || (apply check2_agrees with n1; apply H1; cbn; solve [auto])).
Qed.
Lemma static_1 : forall m n,
  (dot_compiles (Some m) (Some n) = true <-> m = n) /\ (givens_compiles (Some m) (Some n) = true <-> m = n) /\
  (copy_1_compiles (Some m) (Some n) = true <-> m = n) /\ (swap_1_compiles (Some m) (Some n) = true <-> m = n).
Proof. intros. pose proof (check2_static m n). repeat split; apply H. Qed.
Lemma static_2 : forall m0 m1 n0 n1,
  (copy_2_compiles (Some m0, Some m1) (Some n0, Some n1) = true <-> m0 = n0 /\ m1 = n1) /\
  (swap_2_compiles (Some m0, Some m1) (Some n0, Some n1) = true <-> m0 = n0 /\ m1 = n1).
Proof.
  intros. unfold copy_2_compiles, swap_2_compiles; cbn. rewrite andb_true_iff, !Nat.eqb_eq. tauto.
Qed.
Lemma static_add : forall m0 m1 n0 n1 k0 k1,
  (add_1_compiles (Some m0) (Some n0) (Some k0) = true <-> m0 = k0 /\ n0 = k0) /\
  (add_2_compiles (Some m0, Some m1) (Some n0, Some n1) (Some k0, Some k1) = true <->
    (m0 = k0 /\ n0 = k0) /\ (m1 = k1 /\ n1 = k1)).
Proof.
  intros. unfold add_1_compiles, add_2_compiles; cbn. rewrite !andb_true_iff, !Nat.eqb_eq. intuition congruence.
Qed.
(** One argument dynamic: the others are still compared. *)
Lemma add_dynamic : forall m n, add_1_compiles (Some m) (Some n) None = true <-> m = n.
Proof. intros. unfold add_1_compiles; cbn. rewrite Nat.eqb_eq. tauto. Qed.

(** A list of extents of which every two pass the check can be extents of views of one length. *)
Lemma common_length : forall ss, (forall a b, In a ss -> In b ss -> check2 a b = true) -> exists n, equal_lengths ss n.
Proof.
  induction ss as [|s ss IH]; intros H.
  - exists 0. intros s [].
  - destruct s as [k|].
    + exists k. intros s Hs k' ->. specialize (H (Some k) (Some k') (or_introl eq_refl) Hs). cbn in H. now apply Nat.eqb_eq in H.
    + destruct IH as [n Hn]; [intros a b Ha Hb; apply H; right; assumption|].
      exists n. intros s [<-|Hs]; [intros k; discriminate|apply Hn; assumption].
Qed.
Lemma check2_refl : forall a, check2 a a = true. Proof. intros [n|]; cbn; [apply Nat.eqb_refl|reflexivity]. Qed.
Lemma check2_sym : forall a b, check2 a b = check2 b a. Proof. intros [m|] [n|]; cbn; auto. apply Nat.eqb_sym. Qed.
Ltac pairs := intros a b Ha Hb; cbn in Ha, Hb;
  repeat match goal with H : _ \/ _ |- _ => destruct H as [<-|H] | H : False |- _ => destruct H end;
  auto using check2_refl; rewrite check2_sym; auto.
Lemma check2_iff : forall x y, check2 x y = true <-> exists n, equal_lengths [x; y] n.
Proof.
  intros x y; split; [intros H; apply common_length; pairs|].
  intros [n H]. exact (proj1 (valid_1 x y n H)).
Qed.
Lemma vectors_iff : forall x y,
  (dot_compiles x y = true <-> exists n, equal_lengths [x; y] n) /\
  (givens_compiles x y = true <-> exists n, equal_lengths [x; y] n) /\
  (copy_1_compiles x y = true <-> exists n, equal_lengths [x; y] n) /\
  (swap_1_compiles x y = true <-> exists n, equal_lengths [x; y] n).
Proof. intros x y. pose proof (check2_iff x y). repeat split; apply H. Qed.
Lemma matrices_iff : forall x y,
  (copy_2_compiles x y = true <-> (exists n, equal_lengths [fst x; fst y] n) /\ (exists n, equal_lengths [snd x; snd y] n)) /\
  (swap_2_compiles x y = true <-> (exists n, equal_lengths [fst x; fst y] n) /\ (exists n, equal_lengths [snd x; snd y] n)).
Proof.
  intros x y. unfold copy_2_compiles, swap_2_compiles. rewrite andb_true_iff, !check2_iff. tauto.
Qed.
Lemma check3_iff : forall x y z, check2 x z = true /\ check2 y z = true /\ check2 x y = true <-> exists n, equal_lengths [x; y; z] n.
Proof.
  intros x y z; split.
  - intros (H1 & H2 & H3). apply common_length. pairs.
  - intros [n H]. repeat split; apply check2_agrees with n; apply H; cbn; auto.
Qed.
Lemma add_iff : forall x y z, add_1_compiles x y z = true <-> exists n, equal_lengths [x; y; z] n.
Proof. intros. unfold add_1_compiles. rewrite !andb_true_iff, <- check3_iff. tauto. Qed.
Lemma add_2_iff : forall x y z, add_2_compiles x y z = true <->
  (exists n, equal_lengths [fst x; fst y; fst z] n) /\ (exists n, equal_lengths [snd x; snd y; snd z] n).
Proof. intros. unfold add_2_compiles. rewrite !andb_true_iff, <- !check3_iff. tauto. Qed.

(** Contiguity. *)
Lemma bg_contiguous : forall b, bg_is_contiguous b = true -> forall k, k < bg_span b ->
  exists i j, i < bg_ext0 b /\ j < bg_ext1 b /\ bg_off b i j = k.
Proof.
  intros [o e0 e1 l] H k Hk. unfold bg_is_contiguous, bg_span, bg_off in *; cbn in *.
  apply Nat.eqb_eq in H; subst l. destruct o; cbn.
  - assert (e0 <> 0) by nia. exists (k mod e0), (k / e0).
    pose proof (Nat.div_mod_eq k e0). pose proof (Nat.mod_upper_bound k e0 H).
    repeat split; [assumption| |lia]. apply Nat.div_lt_upper_bound; lia.
  - assert (e1 <> 0) by nia. exists (k / e1), (k mod e1).
    pose proof (Nat.div_mod_eq k e1). pose proof (Nat.mod_upper_bound k e1 H).
    repeat split; [|assumption|lia]. apply Nat.div_lt_upper_bound; lia.
Qed.
Lemma bg_not_contiguous : forall b, bg_is_contiguous b = false -> 0 < bg_lda b -> 0 < bg_ext0 b -> 0 < bg_ext1 b ->
  exists k, k < bg_span b /\ forall i j, bg_off b i j <> k.
Proof.
  intros [o e0 e1 l] H Hl H0 H1. unfold bg_is_contiguous, bg_span, bg_off in *; cbn in *.
  apply Nat.eqb_neq in H. exists 1. split; [nia|]. intros i j E.
  destruct (Nat.eq_mul_1 l (off (base_of o) e0 e1 i j)) as [E1 _]. destruct (E1 E). lia.
Qed.

Lemma bg_strided : forall b i j, bg_off b i j = i * bg_stride b false + j * bg_stride b true.
Proof. intros [o e0 e1 l] i j. destruct o; unfold bg_off, bg_stride; cbn; nia. Qed.
Lemma bg_in_span : forall b i j, i < bg_ext0 b -> j < bg_ext1 b -> 0 < bg_lda b -> bg_off b i j < bg_span b.
Proof.
  intros [o e0 e1 l] i j Hi Hj Hl. unfold bg_off, bg_span; cbn in *.
  destruct o; cbn.
  - assert (i + e0 * j < e0 * e1) by nia. nia.
  - assert (i * e1 + j < e0 * e1) by nia. nia.
Qed.
Lemma bg_injective : forall b i j i' j', 0 < bg_lda b -> i < bg_ext0 b -> j < bg_ext1 b -> i' < bg_ext0 b -> j' < bg_ext1 b ->
  bg_off b i j = bg_off b i' j' -> i = i' /\ j = j'.
Proof.
  intros [o e0 e1 l] i j i' j' Hl Hi Hj Hi' Hj' H. unfold bg_off in H; cbn in *.
  apply Nat.mul_cancel_l in H; [|lia].
  destruct o; cbn in H.
  - assert (j = j') by (destruct (Nat.lt_trichotomy j j') as [?|[?|?]]; [nia|assumption|nia]). subst. split; [lia|reflexivity].
  - assert (i = i') by (destruct (Nat.lt_trichotomy i i') as [?|[?|?]]; [nia|assumption|nia]). subst. split; [reflexivity|lia].
Qed.
Lemma bg_lda_one : forall o e0 e1 i j, bg_off (bg_of_extents o e0 e1) i j = off (base_of o) e0 e1 i j.
Proof. intros. unfold bg_off; cbn. lia. Qed.
(** Only a single row (column-major) or a single column (row-major) is laid out as in the BLAS. *)
Lemma bg_line : forall o e0 e1 lda i j, match o with ColMajor => e0 | RowMajor => e1 end = 1 -> i < e0 -> j < e1 ->
  bg_off (bg_of_lda o e0 e1 lda) i j = blas_offset o lda i j.
Proof. intros [] e0 e1 lda i j H Hi Hj; subst; unfold bg_off, blas_offset; cbn; nia. Qed.
Lemma bg_wrong : forall o e0 e1 lda, 2 <= e0 -> 2 <= e1 -> valid_lda o e0 e1 lda ->
  exists i j, i < e0 /\ j < e1 /\ bg_off (bg_of_lda o e0 e1 lda) i j <> blas_offset o lda i j.
Proof.
  intros [] e0 e1 lda H0 H1 Hv; cbn in Hv; unfold bg_off, blas_offset; cbn.
  - exists 0, 1. repeat split; try lia. nia.
  - exists 1, 0. repeat split; try lia. nia.
Qed.
Lemma bg_not_unique : forall o e0 e1 i j i' j', bg_is_unique (bg_of_lda o e0 e1 0) = true /\
  bg_off (bg_of_lda o e0 e1 0) i j = bg_off (bg_of_lda o e0 e1 0) i' j'.
Proof. intros. split; reflexivity. Qed.
Lemma bg_transposed_line : forall b i j, match bg_order b with ColMajor => bg_ext0 b | RowMajor => bg_ext1 b end = 1 ->
  i < bg_ext0 b -> j < bg_ext1 b -> bg_off (bg_transposed b) j i = bg_off b i j.
Proof. intros [[] e0 e1 lda] i j H Hi Hj; cbn in *; subst; unfold bg_off; cbn; nia. Qed.
Lemma bg_transposed_wrong : forall b, 2 <= bg_ext0 b -> 2 <= bg_ext1 b -> 0 < bg_lda b ->
  exists i j, i < bg_ext0 b /\ j < bg_ext1 b /\ bg_off (bg_transposed b) j i <> bg_off b i j.
Proof.
  intros [[] e0 e1 lda] H0 H1 Hl; cbn in *; unfold bg_off, bg_transposed, bg_stride; cbn.
  - exists 1, 0. repeat split; try lia. nia.
  - exists 0, 1. repeat split; try lia. nia.
Qed.

(** Algebra of left-to-right sums. *)
From Coq Require Import List Arith Lia Bool.
From Verif Require Import Mem Scalar View Spec Wp Loops.
Import ListNotations.
Set Implicit Arguments.
Local Open Scope sc_scope.

Section Sums.
Context {O : ops} (L : add_laws O).

Lemma add_0_r : forall x : O, x + zero = x.
Proof. intros; rewrite (add_comm L), (add_0_l L); auto. Qed.
Lemma sum_from_init : forall (s : O) lo n f, sum_from s lo n f = s + sum_from zero lo n f.
Proof.
  intros s lo n f; induction n as [|n IH].
  - rewrite !sum_from_0, add_0_r; auto.
  - rewrite !sum_from_S, IH, (add_assoc L); auto.
Qed.
Lemma sum_zeros : forall (s : O) lo n f, (forall k, lo <= k < lo + n -> f k = zero) -> sum_from s lo n f = s.
Proof.
  intros s lo n f; induction n as [|n IH]; intros H; auto.
  rewrite sum_from_S, IH, H, add_0_r; auto; try lia. intros; apply H; lia.
Qed.
Lemma sum_single : forall lo n (f : nat -> O) k, lo <= k < lo + n ->
  (forall j, lo <= j < lo + n -> j <> k -> f j = zero) -> sum_from zero lo n f = f k.
Proof.
  intros lo n f k Hk H. replace n with ((k - lo) + (1 + (n - (k - lo) - 1)))%nat by lia.
  rewrite !sum_from_app. rewrite (@sum_zeros zero lo); [|intros; apply H; lia].
  rewrite sum_zeros; [|intros; apply H; lia].
  rewrite sum_from_head, sum_from_0, (add_0_l L). f_equal; lia.
Qed.
Lemma sum_add : forall lo n (f g : nat -> O),
  sum_from zero lo n (fun k => f k + g k) = sum_from zero lo n f + sum_from zero lo n g.
Proof.
  intros lo n f g; induction n as [|n IH].
  - rewrite !sum_from_0, add_0_r; auto.
  - rewrite !sum_from_S, IH. rewrite !(add_assoc L). f_equal.
    rewrite <- !(add_assoc L). f_equal. apply (add_comm L).
Qed.
Lemma sum_swap : forall lo n lo' n' (f : nat -> nat -> O),
  sum_from zero lo n (fun i => sum_from zero lo' n' (f i)) =
  sum_from zero lo' n' (fun j => sum_from zero lo n (fun i => f i j)).
Proof.
  intros lo n lo' n' f; induction n as [|n IH].
  - rewrite sum_from_0, sum_zeros; auto.
  - rewrite sum_from_S, IH, <- sum_add. apply sum_from_ext. intros; rewrite sum_from_S; auto.
Qed.
Lemma sum_rev_head : forall (s : O) lo n f,
  sum_from s lo (S n) f = sum_from s (S lo) n f + f lo.
Proof.
  intros. rewrite sum_from_head. rewrite sum_from_init, (sum_from_init s).
  rewrite <- (add_assoc L), (add_comm L (f lo)), (add_assoc L); auto.
Qed.
End Sums.

Section Ring.
Context {O : ops} (L : ring_laws O).
Let LA := ring_add L.

Lemma sum_mul_l : forall (c : O) lo n f, c * sum_from zero lo n f = sum_from zero lo n (fun k => c * f k).
Proof.
  intros c lo n f; induction n as [|n IH].
  - rewrite !sum_from_0, (mul_0_r L); auto.
  - rewrite !sum_from_S, (mul_add_l L), IH; auto.
Qed.
Lemma sum_mul_r : forall (c : O) lo n f, sum_from zero lo n f * c = sum_from zero lo n (fun k => f k * c).
Proof.
  intros c lo n f; induction n as [|n IH].
  - rewrite !sum_from_0, (mul_0_l L); auto.
  - rewrite !sum_from_S, (mul_add_r L), IH; auto.
Qed.

Definition diag_term (d : diagonal) (aii xi : O) : O :=
  match d with Explicit => aii * xi | ImplicitUnit => xi end.

Lemma tri_row_sum : forall init t d n a (f : nat -> O) i, i < n ->
  tri_row init t d n a f i = init + bigsum n (fun j => tri_of t d a i j * f j).
Proof.
  intros init t d n a f i Hi.
  assert (forall j, j <> i -> in_tri t i j -> tri_of t d a i j * f j = tri_term d a f i j) as E1.
  { intros j Hj Ht. unfold tri_of, tri_term. destruct t; simpl in *; bdec; auto. }
  assert (tri_of t d a i i * f i = tri_term d a f i i) as E2.
  { unfold tri_of, tri_term. bdec. destruct d; auto. apply (mul_1_l L). }
  assert (forall j, ~ in_tri t i j -> tri_of t d a i j * f j = zero) as E3.
  { intros j Ht. unfold tri_of. destruct t; simpl in *; bdec; apply (mul_0_l L). }
  assert (forall j, in_tri t i j -> tri_of t d a i j * f j = tri_term d a f i j) as E4.
  { intros j Ht. destruct (Nat.eq_dec j i) as [->|]; auto. }
  unfold tri_row, bigsum. destruct t.
  - rewrite (sum_from_init LA). f_equal.
    transitivity (sum_from zero 0 ((i + 1) + (n - (i + 1))) (fun j => tri_of Lower d a i j * f j)).
    2: { f_equal; lia. }
    rewrite (@sum_from_app O zero 0 (i + 1)).
    rewrite (@sum_zeros _ LA _ (0 + (i + 1))%nat). 2: { intros; apply E3; simpl; lia. }
    apply sum_from_ext. intros; symmetry; apply E4; simpl; lia.
  - rewrite (sum_from_init LA). f_equal.
    replace (sum_from zero 0 n (fun j => tri_of Upper d a i j * f j))
      with (sum_from zero 0 (i + (n - i)) (fun j => tri_of Upper d a i j * f j)) by (f_equal; lia).
    rewrite sum_from_app.
    rewrite (@sum_zeros _ LA zero 0 i). 2: { intros; apply E3; simpl; lia. }
    apply sum_from_ext. intros; symmetry; apply E4; simpl; lia.
Qed.

Lemma tri_row_lower : forall init d n a (f : nat -> O) i,
  tri_row init Lower d n a f i = sum_from init 0 i (fun j => a i j * f j) + diag_term d (a i i) (f i).
Proof.
  intros. unfold tri_row. rewrite Nat.add_1_r, sum_from_S. f_equal.
  - apply sum_from_ext. intros; unfold tri_term; bdec; auto.
  - unfold tri_term, diag_term. simpl. bdec. auto.
Qed.
Lemma tri_row_upper : forall init d n a (f : nat -> O) i, i < n ->
  tri_row init Upper d n a f i = sum_from init (i + 1) (n - (i + 1)) (fun j => a i j * f j) + diag_term d (a i i) (f i).
Proof.
  intros. unfold tri_row. replace (n - i)%nat with (S (n - (i + 1))) by lia.
  rewrite (sum_rev_head LA). f_equal.
  - rewrite Nat.add_1_r. apply sum_from_ext. intros; unfold tri_term; bdec; auto.
  - unfold tri_term, diag_term. bdec. auto.
Qed.
End Ring.

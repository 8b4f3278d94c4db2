(** The lower right solve when the extent is one more than the maximum of the signed index type. *)
From Coq Require Import List ZArith Arith Lia Bool.
From Verif Require Import Mem Scalar View Spec Wp Idx Blas2 Blas3 PfTrsv PfTrsm PfBlas3b.
Set Implicit Arguments.

Lemma boundary_start : forall ty n, ty = U8 \/ ty = U16 -> (Z.of_nat n = max_of (make_signed ty) + 1)%Z ->
  descending_start_signed ty n = (Z.of_nat n - 1)%Z.
Proof. intros ty n [-> | ->] E; unfold descending_start_signed; rewrite E; reflexivity. Qed.

Section Pf.
Context {O : ops}.
Lemma trsm_right_boundary : forall ty (A : mat O) d B X, ty = U8 \/ ty = U16 ->
  (Z.of_nat (ext1 A) = max_of (make_signed ty) + 1)%Z ->
  same_effect (triangular_matrix_matrix_right_solve ty A Lower d B X) (triangular_matrix_matrix_right_solve I64 A Lower d B X).
Proof.
  intros ty A d B X Hty E. simpl. unfold trsm_lower_right.
  assert (Hmax : (max_of (make_signed ty) + 1 <= max_of ty /\ max_of (make_signed ty) + 1 <= max_of I64)%Z)
    by (destruct Hty as [-> | ->]; vm_compute; split; congruence).
  apply peq_for_range. intros i Hi.
  rewrite (boundary_start _ Hty E), (@descending_start_signed_ok I64) by (split; simpl make_signed; lia).
  apply peq_for_down. intros j Hj. apply peq_bind; [apply peq_refl|]. intros b.
  rewrite !wrap_id by lia. apply peq_refl.
Qed.

Lemma trsm_right_boundary_ok : forall ty (m : mem O) A t d B X a b,
  ring_laws O -> div_laws O ->
  ty = U8 \/ ty = U16 -> (Z.of_nat (ext0 A) <= max_of (make_signed ty) + 1)%Z ->
  ext0 A = ext1 A -> ext1 B = ext0 A -> ext1 X = ext0 A -> ext0 X = ext0 B ->
  mat_holds_on m A (stored t d) a -> mat_holds m B b -> mwritable X -> allocated m (mcells X) ->
  disjoint (mcells_on A (stored t d)) (mcells X) -> disjoint_or_aligned_m B X ->
  (d = Explicit -> forall i, i < ext0 A -> a i i <> zero) ->
  succeeds (triangular_matrix_matrix_right_solve ty A t d B X) m (fun _ m' =>
    (exists x, mat_holds m' X x /\
      forall i j, i < ext0 X -> j < ext1 X -> bigsum (ext0 A) (fun k => x i k * tri_of t d a k j)%sc = b i j)
    /\ changes_only m m' (mcells X)).
Proof.
  intros ty m A t d B X a b L D Hty Hn Hsq HB HX HXB HA Hb Hw Hal Hd1 Hd2 Hnz.
  assert (Hmax : (max_of (make_signed ty) + 1 <= max_of ty /\ max_of ty <= max_of I64)%Z)
    by (destruct Hty as [-> | ->]; vm_compute; split; congruence).
  destruct (Z.eq_dec (Z.of_nat (ext0 A)) (max_of (make_signed ty) + 1)) as [E|E].
  - destruct t.
    + eapply peq_succeeds; [apply peq_sym; apply trsm_right_boundary; [exact Hty|rewrite <- Hsq; exact E]|].
      apply trsm_right_index_ok with (a := a) (b := b); auto; [split; lia|right; left; simpl; tauto].
    + apply trsm_right_index_ok with (a := a) (b := b); auto; split; lia.
  - apply trsm_right_index_ok with (a := a) (b := b); auto; [split; lia|right; right; lia].
Qed.
End Pf.

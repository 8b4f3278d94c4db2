(** Triangular solves with matrices of signed integers. *)
From Coq Require Import List Arith ZArith Lia Bool.
From Verif Require Import Mem Scalar View Spec SpecR SpecI SpecSub Idx Wp Loops Sums Norm Int Blas1 Blas2 Blas3 PfTrsm PfSub PfInt PfInt2.
Local Open Scope Z_scope.

Section Signed3.
Variable w : Z.
Notation SO := (sint_ops w).
Notation other t := (match t with Lower => Upper | Upper => Lower end).
Lemma smul_comm : forall x y : SO, @mul SO x y = @mul SO y x.
Proof. intros [x|] [y|]; try reflexivity. cbn [mul sint_ops lift2]. rewrite Z.mul_comm. reflexivity. Qed.
Lemma subst_r_flip : forall t d n (a : nat -> nat -> SO) (b f : nat -> SO) j,
  @subst_value_r SO t d n a b f j = @subst_value SO (@div SO) (other t) d n (fun i k => a k i) b f j.
Proof.
  intros. unfold subst_value_r, subst_value. cbv zeta.
  replace (diffs (b j) (sub_lo (other t) j) (sub_len (other t) n j) (fun k => f k * a k j)%sc) with
    (diffs (b j) (sub_lo (other t) j) (sub_len (other t) n j) (fun k => a k j * f k)%sc); [reflexivity|].
  apply diffs_ext. intros. apply smul_comm.
Qed.
Lemma ztri_flip : forall t d a j k, ztri (other t) d (fun i k => a k i) j k = ztri t d a k j.
Proof.
  intros. unfold ztri. rewrite (Nat.eqb_sym j k). destruct (Nat.eqb_spec k j) as [->|]; auto. destruct t; reflexivity.
Qed.
Lemma trsm_left_trunc : forall ty (m : mem SO) A t d B X (a b x : nat -> nat -> Z),
  fits ty (ext0 A) -> (ext0 A = 0%nat -> t = Upper -> ty <> U32) ->
  ext0 A = ext1 A -> ext0 B = ext0 A -> ext0 X = ext0 A -> ext1 X = ext1 B ->
  mat_holds_on m A (stored t d) (fun i j => Some (a i j)) -> mat_holds m B (fun i j => Some (b i j)) -> mwritable X -> allocated m (mcells X) ->
  disjoint (mcells_on A (stored t d)) (mcells X) -> disjoint_or_aligned_m B X ->
  (d = Explicit -> forall i, (i < ext0 A)%nat -> a i i <> 0) ->
  (forall i j, (i < ext0 A)%nat -> (j < ext1 B)%nat ->
    let r := b i j - zbefore t (ext0 A) i (fun k => a i k * x k j) in
    x i j = match d with Explicit => Z.quot r (a i i) | ImplicitUnit => r end) ->
  (forall i j, (i < ext0 A)%nat -> (j < ext1 B)%nat -> Z.abs (b i j) + zbefore t (ext0 A) i (fun k => Z.abs (a i k * x k j)) <= int_max w) ->
  succeeds (triangular_matrix_matrix_left_solve ty A t d B X) m (fun _ m' =>
    mat_holds m' X (fun i j => Some (x i j)) /\ changes_only m m' (mcells X)).
Proof.
  intros ty m A t d B X a b x H1 H2 H3 H4 H5 H5' H6 H7 H8 H9 H10 H11 Hd Hx Hr.
  eapply wp_conseq; [apply (@trsm_left_subst SO) with (a := fun i j => Some (a i j)) (b := fun i j => Some (b i j)); eauto|].
  intros [] m' [(f & K1 & K2) K3]. split; auto. intros i j Hi Hj HP.
  assert (E : f i j = Some (x i j)).
  { apply (subst_trunc w t d (ext0 A) a (fun i => b i j) (fun i => x i j) (fun i => f i j)); auto; try lia.
    - intros k Hk. apply Hx; lia.
    - intros k Hk. apply Hr; lia.
    - intros k Hk. apply K2; lia. }
  rewrite <- E. apply K1; auto.
Qed.
Lemma trsm_right_trunc : forall ty (m : mem SO) A t d B X (a b x : nat -> nat -> Z),
  (t = Lower -> fits (make_signed ty) (ext0 A)) ->
  ext0 A = ext1 A -> ext1 B = ext0 A -> ext1 X = ext0 A -> ext0 X = ext0 B ->
  mat_holds_on m A (stored t d) (fun i j => Some (a i j)) -> mat_holds m B (fun i j => Some (b i j)) -> mwritable X -> allocated m (mcells X) ->
  disjoint (mcells_on A (stored t d)) (mcells X) -> disjoint_or_aligned_m B X ->
  (d = Explicit -> forall i, (i < ext0 A)%nat -> a i i <> 0) ->
  (forall i j, (i < ext0 B)%nat -> (j < ext0 A)%nat ->
    let r := b i j - zbefore (other t) (ext0 A) j (fun k => x i k * a k j) in
    x i j = match d with Explicit => Z.quot r (a j j) | ImplicitUnit => r end) ->
  (forall i j, (i < ext0 B)%nat -> (j < ext0 A)%nat -> Z.abs (b i j) + zbefore (other t) (ext0 A) j (fun k => Z.abs (x i k * a k j)) <= int_max w) ->
  succeeds (triangular_matrix_matrix_right_solve ty A t d B X) m (fun _ m' =>
    mat_holds m' X (fun i j => Some (x i j)) /\ changes_only m m' (mcells X)).
Proof.
  intros ty m A t d B X a b x H1 H3 H4 H5 H5' H6 H7 H8 H9 H10 H11 Hd Hx Hr.
  eapply wp_conseq; [apply (@trsm_right_subst SO) with (a := fun i j => Some (a i j)) (b := fun i j => Some (b i j)); eauto|].
  intros [] m' [(f & K1 & K2) K3]. split; auto. intros i j Hi Hj HP.
  assert (Z1 : forall t n j (u v : nat -> Z), (forall k, u k = v k) -> zbefore t n j u = zbefore t n j v).
  { intros. unfold zbefore. apply zsum_ext. intros k _. rewrite H. reflexivity. }
  assert (E : f i j = Some (x i j)).
  { apply (subst_trunc w (other t) d (ext0 A) (fun i k => a k i) (b i) (x i) (f i)); auto; try lia.
    - intros k Hk. specialize (Hx i k ltac:(lia) ltac:(lia)). cbv zeta in Hx |- *.
      rewrite (Z1 _ _ _ _ (fun j => a j k * x i j)) in Hx by (intros; lia). exact Hx.
    - intros k Hk. specialize (Hr i k ltac:(lia) ltac:(lia)).
      rewrite (Z1 _ _ _ _ (fun j => Z.abs (a j k * x i j))) in Hr by (intros; f_equal; lia). exact Hr.
    - intros k Hk. rewrite (K2 i k) by lia. apply subst_r_flip. }
  rewrite <- E. apply K1; auto.
Qed.
Lemma trsm_right_exact : forall ty (m : mem SO) A t d B X (a b x : nat -> nat -> Z),
  (t = Lower -> fits (make_signed ty) (ext0 A)) ->
  ext0 A = ext1 A -> ext1 B = ext0 A -> ext1 X = ext0 A -> ext0 X = ext0 B ->
  mat_holds_on m A (stored t d) (fun i j => Some (a i j)) -> mat_holds m B (fun i j => Some (b i j)) -> mwritable X -> allocated m (mcells X) ->
  disjoint (mcells_on A (stored t d)) (mcells X) -> disjoint_or_aligned_m B X ->
  (d = Explicit -> forall i, (i < ext0 A)%nat -> a i i <> 0) ->
  (forall i j, (i < ext0 B)%nat -> (j < ext0 A)%nat -> zsum (ext0 A) (fun k => x i k * ztri t d a k j) = b i j) ->
  (forall i j, (i < ext0 B)%nat -> (j < ext0 A)%nat -> Z.abs (b i j) + zbefore (other t) (ext0 A) j (fun k => Z.abs (x i k * a k j)) <= int_max w) ->
  succeeds (triangular_matrix_matrix_right_solve ty A t d B X) m (fun _ m' =>
    mat_holds m' X (fun i j => Some (x i j)) /\ changes_only m m' (mcells X)).
Proof.
  intros. eapply trsm_right_trunc; eauto. intros i j Hi Hj.
  assert (T : trunc_solution (other t) d (ext0 A) (fun i k => a k i) (b i) (x i)).
  { apply exact_is_trunc; auto. intros k Hk. rewrite <- (H11 i k) by auto. apply zsum_ext. intros l Hl. rewrite ztri_flip. lia. }
  specialize (T j Hj). cbv zeta in T |- *.
  replace (zbefore (other t) (ext0 A) j (fun k => x i k * a k j)) with (zbefore (other t) (ext0 A) j (fun k => a k j * x i k)); auto.
  unfold zbefore. apply zsum_ext. intros k _. rewrite Z.mul_comm. reflexivity.
Qed.
Lemma trsm_left_div0 : forall ty (m : mem SO) A t B X (a b : nat -> nat -> Z) i,
  fits ty (ext0 A) -> ext0 A = ext1 A -> ext0 B = ext0 A -> ext0 X = ext0 A -> ext1 X = ext1 B ->
  mat_holds_on m A (stored t Explicit) (fun i j => Some (a i j)) -> mat_holds m B (fun i j => Some (b i j)) -> mwritable X -> allocated m (mcells X) ->
  disjoint (mcells_on A (stored t Explicit)) (mcells X) -> disjoint_or_aligned_m B X ->
  (i < ext0 A)%nat -> a i i = 0 ->
  succeeds (triangular_matrix_matrix_left_solve ty A t Explicit B X) m (fun _ m' =>
    exists f : nat -> nat -> option Z, mat_holds (O := SO) m' X f /\ forall j, (j < ext1 X)%nat -> f i j = None).
Proof.
  intros ty m A t B X a b i H1 H3 H4 H5 H5' H6 H7 H8 H9 H10 H11 Hi Ha.
  eapply wp_conseq; [apply (@trsm_left_subst SO) with (a := fun i j => Some (a i j)) (b := fun i j => Some (b i j)); eauto; lia|].
  intros [] m' [(f & K1 & K2) K3]. exists f. split; auto. intros j Hj. rewrite (K2 i j) by lia. unfold subst_value. rewrite Ha.
  match goal with |- @div _ ?s _ = _ => generalize s end. intros [z|]; reflexivity.
Qed.
Lemma trsm_right_div0 : forall ty (m : mem SO) A t B X (a b : nat -> nat -> Z) j,
  (t = Lower -> fits (make_signed ty) (ext0 A)) ->
  ext0 A = ext1 A -> ext1 B = ext0 A -> ext1 X = ext0 A -> ext0 X = ext0 B ->
  mat_holds_on m A (stored t Explicit) (fun i j => Some (a i j)) -> mat_holds m B (fun i j => Some (b i j)) -> mwritable X -> allocated m (mcells X) ->
  disjoint (mcells_on A (stored t Explicit)) (mcells X) -> disjoint_or_aligned_m B X ->
  (j < ext0 A)%nat -> a j j = 0 ->
  succeeds (triangular_matrix_matrix_right_solve ty A t Explicit B X) m (fun _ m' =>
    exists f : nat -> nat -> option Z, mat_holds (O := SO) m' X f /\ forall i, (i < ext0 X)%nat -> f i j = None).
Proof.
  intros ty m A t B X a b j H1 H3 H4 H5 H5' H6 H7 H8 H9 H10 H11 Hj Ha.
  eapply wp_conseq; [apply (@trsm_right_subst SO) with (a := fun i j => Some (a i j)) (b := fun i j => Some (b i j)); eauto|].
  intros [] m' [(f & K1 & K2) K3]. exists f. split; auto. intros i Hi. rewrite (K2 i j) by lia. unfold subst_value_r. rewrite Ha.
  match goal with |- @div _ ?s _ = _ => generalize s end. intros [z|]; reflexivity.
Qed.
End Signed3.

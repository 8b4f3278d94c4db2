(** Norms in exact arithmetic. *)
From Coq Require Import List Arith Lia Bool Reals Lra Psatz.
From Verif Require Import Mem Scalar View Spec Wp Norm SpecR PfTrsv.
Import ListNotations.
Set Implicit Arguments.
Local Open Scope R_scope.
Local Notation nlt := (@lt nat).

(** * Programs that only read *)
Lemma returns_ret : forall T A (x : A) (m : mem T) (Q : A -> Prop), Q x -> returns (Ret x) m Q.
Proof. intros. exists x; auto. Qed.
Lemma returns_bind : forall T A B (p : prog T A) (f : A -> prog T B) m (P : A -> Prop) (Q : B -> Prop),
  returns p m P -> (forall x, P x -> returns (f x) m Q) -> returns (bind p f) m Q.
Proof.
  intros T A B p f m P Q (x & Hx & HP) H. destruct (H x HP) as (y & Hy & HQ). exists y; split; auto.
  rewrite run_bind, Hx; auto.
Qed.
Lemma returns_conseq : forall T A (p : prog T A) m (P Q : A -> Prop),
  returns p m P -> (forall x, P x -> Q x) -> returns p m Q.
Proof. intros T A p m P Q (x & Hx & HP) H. exists x; auto. Qed.
Lemma returns_fold : forall T A (I : nat -> A -> Prop) (m : mem T) lo hi body acc,
  (lo <= hi)%nat -> I lo acc ->
  (forall i a, (lo <= i < hi)%nat -> I i a -> returns (body i a) m (I (S i))) ->
  returns (fold_range lo hi body acc) m (I hi).
Proof.
  intros T A I m lo hi body acc Hle HI Hb. unfold fold_range.
  remember (hi - lo)%nat as n eqn:Hn. revert lo acc Hle HI Hb Hn.
  induction n as [|n IH]; intros lo acc Hle HI Hb Hn; simpl.
  - replace hi with lo by lia. apply returns_ret; auto.
  - eapply returns_bind; [apply Hb; auto; lia|]. intros a Ha. apply IH; auto; try lia.
    intros i a' Hi. apply Hb; lia.
Qed.
Lemma returns_vget : forall (O : ops) (m : mem O) x f i (Q : O -> Prop),
  vec_holds m x f -> (i < vext x)%nat -> Q (f i) -> returns (vget x i) m Q.
Proof. intros O m x f i Q H Hi HQ. exists (f i); split; auto. eapply run_vget; eauto. Qed.
Lemma returns_mget : forall (O : ops) (m : mem O) A a i j (Q : O -> Prop),
  mat_holds m A a -> (i < ext0 A)%nat -> (j < ext1 A)%nat -> Q (a i j) -> returns (mget A i j) m Q.
Proof. intros O m A a i j Q H Hi Hj HQ. exists (a i j); split; auto. eapply run_mget; eauto. exact I. Qed.
Ltac rget := eapply returns_bind with (P := fun v => v = _);
  [first [eapply returns_vget; [eassumption|lia|reflexivity] | eapply returns_mget; [eassumption|lia|lia|reflexivity]]|];
  let v := fresh "v" in intros v ->.

(** * Real sums and maxima *)
Lemma rsum_ext : forall n f g, (forall i, (i < n)%nat -> f i = g i) -> rsum n f = rsum n g.
Proof. induction n as [|n IH]; intros f g H; simpl; auto. rewrite (IH f g), H; auto. Qed.
Lemma rsum_nonneg : forall n f, (forall i, (i < n)%nat -> 0 <= f i) -> 0 <= rsum n f.
Proof. induction n as [|n IH]; intros f H; simpl; [lra|]. assert (0 <= rsum n f) by auto. specialize (H n ltac:(lia)). lra. Qed.
Lemma rsum_le : forall n f g, (forall i, (i < n)%nat -> f i <= g i) -> rsum n f <= rsum n g.
Proof. induction n as [|n IH]; intros f g H; simpl; [lra|]. assert (rsum n f <= rsum n g) by auto. specialize (H n ltac:(lia)). lra. Qed.
Lemma rmax0_nonneg : forall n f, 0 <= rmax0 n f.
Proof. induction n as [|n IH]; intros f; simpl; [lra|]. eapply Rle_trans; [apply IH|apply Rmax_l]. Qed.
Lemma rmax0_ext : forall n f g, (forall i, (i < n)%nat -> f i = g i) -> rmax0 n f = rmax0 n g.
Proof. induction n as [|n IH]; intros f g H; simpl; auto. rewrite (IH f g), H; auto. Qed.
Lemma rmax0_ge : forall n f i, (i < n)%nat -> f i <= rmax0 n f.
Proof.
  induction n as [|n IH]; intros f i Hi; [lia|]. simpl. destruct (Nat.eq_dec i n) as [->|].
  - apply Rmax_r.
  - eapply Rle_trans; [apply IH; lia|apply Rmax_l].
Qed.
Lemma rmax0_attained : forall n f, rmax0 n f = 0 \/ exists i, (i < n)%nat /\ rmax0 n f = f i.
Proof.
  induction n as [|n IH]; intros f; simpl; auto. unfold Rmax. destruct (Rle_dec (rmax0 n f) (f n)).
  - right. exists n; auto.
  - destruct (IH f) as [E|(i & Hi & E)]; auto. right. exists i; auto.
Qed.
Lemma rltb_spec : forall dv sq x y, reflect (x < y) (@rltb (exact dv sq) x y).
Proof. intros. simpl. destruct (Rlt_dec x y); constructor; auto. Qed.
Lemma reqb_spec : forall dv sq x y, reflect (x = y) (@reqb (exact dv sq) x y).
Proof. intros. simpl. destruct (Req_EM_T x y); constructor; auto. Qed.
Lemma std_max_exact : forall dv sq (x y : R), @std_max (exact dv sq) x y = Rmax x y.
Proof.
  intros. unfold std_max. destruct (rltb_spec dv sq x y) as [H|H]; unfold Rmax; destruct (Rle_dec x y); lra.
Qed.

(** vector_abs_sum for any magnitude type (no law): the order of the additions. *)
Lemma abs_sum_order : forall (O : ops) (F : rops) (M : mags O F) (m : mem O) v f init, vec_holds m v f ->
  run (vector_abs_sum M v init) m =
  Ok (fold_left (fun s i => if arithmetic M then radd s (eabs M (f i))
                            else radd (radd s (rabs (ereal M (f i)))) (rabs (eimag M (f i))))
        (seq 0 (vext v)) init) m.
Proof.
  intros O F M m v f init Hv. unfold vector_abs_sum, fold_range. rewrite Nat.sub_0_r.
  assert (forall n lo s, (lo + n <= vext v)%nat ->
    run (if arithmetic M then fold_ lo n (fun i s => bind (vget v i) (fun x => Ret (radd s (eabs M x)))) s
         else fold_ lo n (fun i s => bind (vget v i) (fun x => bind (vget v i) (fun x' =>
           Ret (radd (radd s (rabs (ereal M x))) (rabs (eimag M x')))))) s) m =
    Ok (fold_left (fun s i => if arithmetic M then radd s (eabs M (f i))
                            else radd (radd s (rabs (ereal M (f i)))) (rabs (eimag M (f i)))) (seq lo n) s) m) as K.
  { induction n as [|n IH]; intros lo s Hn; simpl.
    - destruct (arithmetic M); auto.
    - specialize (IH (S lo)).
      destruct (arithmetic M); rewrite !run_bind, (run_vget Hv) by lia; [|rewrite run_bind, (run_vget Hv) by lia]; simpl; apply IH; lia. }
  apply K; lia.
Qed.

Section Pf.
Context {O : ops} (dv : R -> R -> R) (sq : R -> R) (M : mags O (exact dv sq)).

(** * vector_abs_sum *)
Lemma abs_sum_arith_ok : forall (m : mem O) v f (init : R), arithmetic M = true -> vec_holds m v f ->
  returns (vector_abs_sum M v init) m (fun r => r = init + rsum (vext v) (fun i => mag M (f i))).
Proof.
  intros m v f init Ha Hv. unfold vector_abs_sum. rewrite Ha.
  eapply returns_conseq.
  - apply returns_fold with (I := fun i (s : R) => s = init + rsum i (fun i => mag M (f i))); [lia|simpl; lra|].
    intros i s Hi ->. rget. apply returns_ret. simpl. fold (mag M (f i)). lra.
  - auto.
Qed.
Lemma abs_sum_complex_ok : forall (m : mem O) v f (init : R), arithmetic M = false -> vec_holds m v f ->
  returns (vector_abs_sum M v init) m (fun r =>
    r = init + rsum (vext v) (fun i => Rabs (repart M (f i)) + Rabs (impart M (f i)))).
Proof.
  intros m v f init Ha Hv. unfold vector_abs_sum. rewrite Ha.
  eapply returns_conseq.
  - apply returns_fold with (I := fun i (s : R) => s = init + rsum i (fun i => Rabs (repart M (f i)) + Rabs (impart M (f i)))); [lia|simpl; lra|].
    intros i s Hi ->. rget. rget. apply returns_ret. simpl. fold (repart M (f i)). fold (impart M (f i)). lra.
  - auto.
Qed.
Lemma abs_sum_bound : forall (m : mem O) v f (init : R), (forall x, 0 <= mag M x) -> vec_holds m v f ->
  returns (vector_abs_sum M v init) m (fun r => init <= r).
Proof.
  intros m v f init H0 Hv. destruct (arithmetic M) eqn:E.
  - eapply returns_conseq; [eapply abs_sum_arith_ok; eauto|]. intros x ->.
    pose proof (@rsum_nonneg (vext v) (fun i => mag M (f i)) ltac:(intros; apply H0)). lra.
  - eapply returns_conseq; [eapply abs_sum_complex_ok; eauto|]. intros x ->.
    pose proof (@rsum_nonneg (vext v) (fun i => Rabs (repart M (f i)) + Rabs (impart M (f i)))
      ltac:(intros; pose proof (Rabs_pos (repart M (f i))); pose proof (Rabs_pos (impart M (f i))); lra)). lra.
Qed.

(** * vector_sum_of_squares *)
Definition ssq_value (s : @sum_of_squares_result (exact dv sq)) : R :=
  scaling_factor s * scaling_factor s * scaled_sum_of_squares s.

Lemma ssq_fold_ok : forall (m : mem O) x f (init : @sum_of_squares_result (exact dv sq)), exact_div dv -> (forall v, 0 <= mag M v) ->
  vec_holds m x f -> 0 <= scaling_factor init ->
  returns (vector_sum_of_squares M x init) m (fun r =>
    scaling_factor r * scaling_factor r * scaled_sum_of_squares r =
      scaling_factor init * scaling_factor init * scaled_sum_of_squares init
      + rsum (vext x) (fun i => mag M (f i) * mag M (f i))
    /\ scaling_factor r = Rmax (scaling_factor init) (rmax0 (vext x) (fun i => mag M (f i)))).
Proof.
  intros m x f init Hdv H0 Hx Hs. unfold vector_sum_of_squares.
  destruct (Nat.eqb_spec (vext x) 0) as [E|E].
  { apply returns_ret. rewrite E. simpl. split; [lra|]. rewrite Rmax_left; auto. }
  apply returns_fold with (I := fun i (r : @sum_of_squares_result (exact dv sq)) =>
    scaling_factor r * scaling_factor r * scaled_sum_of_squares r =
      scaling_factor init * scaling_factor init * scaled_sum_of_squares init
      + rsum i (fun i => mag M (f i) * mag M (f i))
    /\ scaling_factor r = Rmax (scaling_factor init) (rmax0 i (fun i => mag M (f i)))); [lia| |].
  { simpl. split; [lra|]. rewrite Rmax_left; auto. }
  intros i [s q] Hi [HI1 HI2]. unfold ssq_step. rget. simpl in *. fold (mag M (f i)).
  pose proof (H0 (f i)) as Hp.
  assert (0 <= s) as Hs0. { rewrite HI2. eapply Rle_trans; [exact Hs|apply Rmax_l]. }
  destruct (Req_EM_T (mag M (f i)) 0) as [Ez|Ez].
  - apply returns_ret. simpl. rewrite Ez. split; [lra|].
    rewrite (Rmax_left (rmax0 i _) 0); auto. apply rmax0_nonneg.
  - rget. fold (mag M (f i)). destruct (Rlt_dec s (mag M (f i))) as [Hlt|Hlt].
    + apply returns_ret. simpl. rewrite Hdv by auto. split.
      * transitivity (mag M (f i) * mag M (f i) + s * s * q); [field; auto|]. lra.
      * rewrite Rmax_assoc, <- HI2. symmetry. apply Rmax_right. lra.
    + assert (s <> 0) by lra. apply returns_ret. simpl. rewrite Hdv by auto. split.
      * transitivity (s * s * q + mag M (f i) * mag M (f i)); [field; auto|]. lra.
      * rewrite Rmax_assoc, <- HI2. symmetry. apply Rmax_left. lra.
Qed.
Lemma ssq_nonneg : forall (m : mem O) x f (init : @sum_of_squares_result (exact dv sq)), exact_div dv -> (forall v, 0 <= mag M v) ->
  vec_holds m x f -> 0 <= scaling_factor init -> 0 <= scaled_sum_of_squares init ->
  returns (vector_sum_of_squares M x init) m (fun r => 0 <= scaled_sum_of_squares r).
Proof.
  intros m x f init Hdv H0 Hx Hs Hq. unfold vector_sum_of_squares.
  destruct (Nat.eqb_spec (vext x) 0) as [E|E]; [apply returns_ret; auto|].
  eapply returns_conseq; [apply returns_fold with (I := fun i (r : @sum_of_squares_result (exact dv sq)) => 0 <= scaled_sum_of_squares r)|]; auto; [lia|].
  intros i [s q] Hi HI. unfold ssq_step. rget. simpl in *. fold (mag M (f i)).
  destruct (Req_EM_T (mag M (f i)) 0); [apply returns_ret; auto|]. rget. fold (mag M (f i)).
  destruct (Rlt_dec s (mag M (f i))); apply returns_ret; simpl.
  - pose proof (Rle_0_sqr (dv s (mag M (f i)))). unfold Rsqr in *. nra.
  - pose proof (Rle_0_sqr (dv (mag M (f i)) s)). unfold Rsqr in *. nra.
Qed.

(** The scaled sum never exceeds its initial value (at least 1) plus the number of elements: no
    intermediate quantity is larger than that (this is what avoids overflow). *)
Lemma ssq_bounded : forall (m : mem O) x f (init : @sum_of_squares_result (exact dv sq)), exact_div dv -> (forall v, 0 <= mag M v) ->
  vec_holds m x f -> 0 <= scaling_factor init -> 1 <= scaled_sum_of_squares init ->
  returns (vector_sum_of_squares M x init) m (fun r =>
    1 <= scaled_sum_of_squares r <= scaled_sum_of_squares init + INR (vext x)).
Proof.
  intros m x f init Hdv H0 Hx Hs Hq. unfold vector_sum_of_squares.
  destruct (Nat.eqb_spec (vext x) 0) as [E|E]; [apply returns_ret; rewrite E; simpl; lra|].
  eapply returns_conseq.
  { apply returns_fold with (I := fun i (r : @sum_of_squares_result (exact dv sq)) => 0 <= scaling_factor r /\ 1 <= scaled_sum_of_squares r <= scaled_sum_of_squares init + INR i);
      [lia|simpl; lra|].
    intros i [s q] Hi HI. unfold ssq_step. rget. simpl scaling_factor in *. simpl scaled_sum_of_squares in *.
    simpl reqb. simpl rltb. fold (mag M (f i)). pose proof (H0 (f i)).
    destruct (Req_EM_T (mag M (f i)) 0); [apply returns_ret; rewrite S_INR; simpl; lra|]. rget. fold (mag M (f i)).
    destruct (Rlt_dec s (mag M (f i))) as [Hlt|Hlt]; apply returns_ret; rewrite S_INR; simpl; rewrite Hdv by lra.
    - split; [lra|]. assert (0 <= s / mag M (f i) <= 1) as B.
      { split; [apply Rmult_le_pos; [lra|apply Rlt_le, Rinv_0_lt_compat; lra]|].
        apply Rmult_le_reg_r with (mag M (f i)); [lra|]. unfold Rdiv. rewrite Rmult_assoc, Rinv_l by lra. lra. }
      set (t := s / mag M (f i)) in *.
      assert (0 <= t * t <= 1) by nra. assert (0 <= q * (t * t) <= q) by nra. lra.
    - split; [lra|]. assert (0 <= mag M (f i) / s <= 1) as B.
      { split; [apply Rmult_le_pos; [lra|apply Rlt_le, Rinv_0_lt_compat; lra]|].
        apply Rmult_le_reg_r with s; [lra|]. unfold Rdiv. rewrite Rmult_assoc, Rinv_l by lra. lra. }
      set (t := mag M (f i) / s) in *. nra. }
  intros r [_ Hr]. exact Hr.
Qed.

(** * vector_two_norm *)
Lemma two_norm_ok : forall (m : mem O) x f (init : R), exact_div dv -> exact_sqrt sq -> (forall v, 0 <= mag M v) ->
  vec_holds m x f ->
  returns (vector_two_norm M x init) m (fun r => r = init + sqrt (rsum (vext x) (fun i => mag M (f i) * mag M (f i)))).
Proof.
  intros m x f init Hdv Hsq H0 Hx. unfold vector_two_norm.
  destruct (@ssq_fold_ok m x f (Ssq (F := exact dv sq) 0 1) Hdv H0 Hx ltac:(simpl; lra)) as (r & Hr & E1 & E2).
  destruct (@ssq_nonneg m x f (Ssq (F := exact dv sq) 0 1) Hdv H0 Hx ltac:(simpl; lra) ltac:(simpl; lra)) as (r' & Hr' & E3).
  assert (r' = r) as -> by congruence.
  exists (init + scaling_factor r * sq (scaled_sum_of_squares r)). split.
  { rewrite run_bind. simpl in Hr |- *. rewrite Hr. reflexivity. }
  f_equal. simpl in E1, E2.
  assert (0 <= scaling_factor r) as Hs by (rewrite E2; apply Rmax_l).
  rewrite Hsq by auto. rewrite <- (sqrt_square (scaling_factor r)) at 1 by auto.
  rewrite <- sqrt_mult_alt by (apply Rle_0_sqr). f_equal. simpl. lra.
Qed.

Lemma two_norm_noinit_ok : forall (m : mem O) x f, exact_div dv -> exact_sqrt sq -> (forall v, 0 <= mag M v) ->
  vec_holds m x f ->
  returns (vector_two_norm_noinit M x) m (fun r => r = sqrt (rsum (vext x) (fun i => mag M (f i) * mag M (f i)))).
Proof.
  intros m x f Hdv Hsq H0 Hx. eapply returns_conseq; [apply two_norm_ok; eauto|]. intros r ->. apply Rplus_0_l.
Qed.

(** * matrix_inf_norm, matrix_one_norm *)
Lemma max_shift : forall n (f : nat -> R) init r, (forall i, (i < n)%nat -> 0 <= f i) ->
  r = init + rmax0 n f -> forall k, Rmax (init + k) r = init + Rmax (rmax0 n f) k.
Proof. intros n f init r H -> k. unfold Rmax. repeat destruct Rle_dec; lra. Qed.

Lemma inf_norm_ok : forall (m : mem O) A a (init : R), (forall v, 0 <= mag M v) -> mat_holds m A a ->
  returns (matrix_inf_norm M A init) m (fun r =>
    r = init + rmax0 (ext0 A) (fun i => rsum (ext1 A) (fun j => mag M (a i j)))).
Proof.
  intros m A a init H0 HA. unfold matrix_inf_norm.
  destruct (Nat.eqb_spec (ext0 A) 0) as [E|E]; simpl.
  { apply returns_ret. rewrite E. simpl. lra. }
  destruct (Nat.eqb_spec (ext1 A) 0) as [E1|E1]; simpl.
  { apply returns_ret. rewrite E1. simpl. symmetry. rewrite <- (Rplus_0_r init) at 2. f_equal.
    clear. induction (ext0 A) as [|n IH]; simpl; auto. rewrite IH. apply Rmax_left; lra. }
  destruct ((ext0 A =? 1)%nat && (ext1 A =? 1)%nat) eqn:E2.
  { apply andb_prop in E2. destruct E2 as [E2 E3]. apply Nat.eqb_eq in E2, E3. rget. apply returns_ret. rewrite E2, E3. simpl. fold (mag M (a 0 0)%nat).
    rewrite Rplus_0_l, Rmax_right; auto. }
  apply returns_fold with (I := fun i (r : R) => r = init + rmax0 i (fun i => rsum (ext1 A) (fun j => mag M (a i j)))); [lia|simpl; lra|].
  intros i r Hi Hr. eapply returns_bind with (P := fun s : R => s = init + rsum (ext1 A) (fun j => mag M (a i j))).
  - apply returns_fold with (I := fun j (s : R) => s = init + rsum j (fun j => mag M (a i j))); [lia|simpl; lra|].
    intros j s Hj ->. rget. apply returns_ret. simpl. fold (mag M (a i j)). lra.
  - intros s ->. apply returns_ret. rewrite std_max_exact. simpl.
    apply max_shift; auto. intros; apply rsum_nonneg; auto.
Qed.
Lemma one_norm_ok : forall (m : mem O) A a (init : R), (forall v, 0 <= mag M v) -> mat_holds m A a ->
  returns (matrix_one_norm M A init) m (fun r =>
    r = init + rmax0 (ext1 A) (fun j => rsum (ext0 A) (fun i => mag M (a i j)))).
Proof.
  intros m A a init H0 HA. unfold matrix_one_norm.
  destruct (Nat.eqb_spec (ext0 A) 0) as [E|E]; simpl.
  { apply returns_ret. rewrite E. simpl. symmetry. rewrite <- (Rplus_0_r init) at 2. f_equal.
    clear. induction (ext1 A) as [|n IH]; simpl; auto. rewrite IH. apply Rmax_left; lra. }
  destruct (Nat.eqb_spec (ext1 A) 0) as [E1|E1]; simpl.
  { apply returns_ret. rewrite E1. simpl. lra. }
  destruct ((ext0 A =? 1)%nat && (ext1 A =? 1)%nat) eqn:E2.
  { apply andb_prop in E2. destruct E2 as [E2 E3]. apply Nat.eqb_eq in E2, E3. rget. apply returns_ret. rewrite E2, E3. simpl. fold (mag M (a 0 0)%nat).
    rewrite Rplus_0_l, Rmax_right; auto. }
  apply returns_fold with (I := fun j (r : R) => r = init + rmax0 j (fun j => rsum (ext0 A) (fun i => mag M (a i j)))); [lia|simpl; lra|].
  intros j r Hj Hr. eapply returns_bind with (P := fun s : R => s = init + rsum (ext0 A) (fun i => mag M (a i j))).
  - apply returns_fold with (I := fun i (s : R) => s = init + rsum i (fun i => mag M (a i j))); [lia|simpl; lra|].
    intros i s Hi ->. rget. apply returns_ret. simpl. fold (mag M (a i j)). lra.
  - intros s ->. apply returns_ret. rewrite std_max_exact. simpl.
    apply max_shift; auto. intros; apply rsum_nonneg; auto.
Qed.
End Pf.

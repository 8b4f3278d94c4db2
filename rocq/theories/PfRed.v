(** Proofs about parallel reductions and the Kokkos norms. *)
From Coq Require Import List Arith Lia Bool Reals Lra Permutation.
From Verif Require Import Mem Scalar View Spec Wp Loops Sums PfView PfTrsv Norm SpecR PfNorm Par SpecK KK PfKK Red KKNorm SpecRed Blas1 PfBlas1.
Import ListNotations.
Set Implicit Arguments.

(** * Reductions with an associative, commutative operation *)
Section Fold.
Variables (T A : Type) (op : A -> A -> A) (e : A).
Hypothesis op_assoc : forall x y z, op x (op y z) = op (op x y) z.
Hypothesis op_comm : forall x y, op x y = op y x.
Hypothesis op_e : op e e = e.

Fixpoint ofold (f : nat -> A) (l : list nat) : A := match l with [] => e | i :: l => op (f i) (ofold f l) end.
Lemma ofold_e : forall f l, op e (ofold f l) = ofold f l.
Proof. intros f l. induction l as [|i l IH]; simpl; auto. rewrite op_assoc, (op_comm e), <- op_assoc, IH; auto. Qed.
Lemma ofold_app : forall f l1 l2, ofold f (l1 ++ l2) = op (ofold f l1) (ofold f l2).
Proof. intros f l1 l2. induction l1 as [|i l IH]; simpl; [symmetry; apply ofold_e|]. rewrite IH, op_assoc; auto. Qed.
Lemma ofold_perm : forall f l l', Permutation l l' -> ofold f l = ofold f l'.
Proof.
  intros f l l' H. induction H; simpl; auto; [congruence| |congruence].
  rewrite !op_assoc, (op_comm (f y)); auto.
Qed.
Lemma partial_ofold : forall (m : mem T) n body f,
  (forall i x, i < n -> run (body i x) m = Ok (op x (f i)) m) ->
  forall l x, partial m body op e l x -> (forall k, In k l -> k < n) -> x = ofold f l.
Proof.
  intros m n body f Hb l x H. induction H as [|l x i y m' H IH Hy|l1 l2 x y H1 IH1 H2 IH2]; intros Hl; simpl; auto.
  - rewrite ofold_app. simpl. rewrite Hb in Hy by (apply Hl, in_or_app; simpl; auto). injection Hy as <- <-.
    rewrite IH by (intros; apply Hl, in_or_app; auto). rewrite (op_comm (f i)), op_assoc.
    rewrite (op_comm _ e), ofold_e; auto.
  - rewrite ofold_app, IH1, IH2; auto; intros; apply Hl, in_or_app; auto.
Qed.
Lemma reduce_ofold : forall (m : mem T) n body f (Q : A -> Prop),
  (forall i x, i < n -> run (body i x) m = Ok (op x (f i)) m) -> Q (ofold f (seq 0 n)) ->
  reduce_ok n body op e m Q.
Proof.
  intros m n body f Q Hb HQ. split.
  - intros l x i _ Hr _. eexists. apply Hb, Hr; simpl; auto.
  - intros l x Hp Hx. rewrite (partial_ofold (n:=n) f Hb Hx).
    + rewrite (ofold_perm f Hp); auto.
    + intros k Hk. apply (Permutation_in _ Hp), in_seq in Hk. lia.
Qed.
End Fold.

(** Executions exist, and return what [red_returns] says. *)
Lemma reduce_exists : forall T A n (body : nat -> A -> prog T A) join e m Q,
  reduce_ok n body join e m Q -> exists x, partial m body join e (seq 0 n) x /\ Q x.
Proof.
  intros T A n body join e m Q [Hs HQ].
  assert (G : forall k, k <= n -> exists x, partial m body join e (seq 0 k) x).
  { induction k as [|k IH]; intros Hk.
    - exists e. constructor.
    - destruct IH as [x Hx]; [lia|]. rewrite seq_S. simpl.
      destruct (Hs (seq 0 k) x k) as [y Hy]; auto.
      + constructor; [rewrite in_seq; lia|apply seq_NoDup].
      + intros q [<-|Hq]; [lia|]. apply in_seq in Hq. lia.
      + exists y. eapply partial_step; eauto. }
  destruct (G n (Nat.le_refl n)) as [x Hx]. exists x. split; auto. eapply HQ; eauto.
Qed.
Lemma red_sound : forall T A X (p : red T A X) m Q r, red_returns p m Q -> red_result m r p -> Q r.
Proof.
  intros T A X p m Q r H Hr. induction Hr as [|p k x m' Hp Hr IH|n body join e k l x Hl Hx Hr IH]; simpl in H; auto.
  - destruct H as (y & Hy & H). rewrite Hp in Hy. injection Hy as <- _. auto.
  - apply IH. eapply (proj2 H); eauto.
Qed.
Lemma red_exists : forall T A X (p : red T A X) m Q, red_returns p m Q -> exists r, red_result m r p.
Proof.
  intros T A X p. induction p as [x| | |p k IH|n body join e k IH]; simpl; intros m Q H; try contradiction.
  - exists x. constructor.
  - destruct H as (x & Hx & H). destruct (IH x m Q H) as [r Hr]. exists r. econstructor; eauto.
  - destruct (reduce_exists H) as (x & Hx & H'). destruct (IH x m Q H') as [r Hr]. exists r.
    econstructor; [apply Permutation_refl|exact Hx|exact Hr].
Qed.
Lemma red_not : forall T A X (p : red T A X) m (P Q : X -> Prop),
  red_returns p m P -> (forall r, P r -> ~ Q r) -> ~ red_returns p m Q.
Proof. intros T A X p m P Q H HPQ K. destruct (red_exists _ _ _ H) as [r Hr]. apply (HPQ r); eapply red_sound; eauto. Qed.
Lemma reduce_mono : forall T A n (body : nat -> A -> prog T A) join e m (P Q : A -> Prop),
  reduce_ok n body join e m P -> (forall x, P x -> Q x) -> reduce_ok n body join e m Q.
Proof. intros T A n body join e m P Q [H1 H2] H. split; eauto. Qed.
Lemma red_mono : forall T A X (p : red T A X) m (P Q : X -> Prop),
  red_returns p m P -> (forall x, P x -> Q x) -> red_returns p m Q.
Proof.
  intros T A X p. induction p as [x| | |p k IH|n body join e k IH]; simpl; intros m P Q H HPQ; auto.
  - destruct H as (x & Hx & H). exists x. split; auto. eapply IH; eauto.
  - eapply reduce_mono; [exact H|]. intros x Hx. cbv beta in Hx. exact (IH x m P Q Hx HPQ).
Qed.

(** * Values of the sums and maxima *)
Lemma rview_plain : forall (O : ops) A X (M : mat O) (k : mat O -> red O A X), plain_m M -> rview_m M k = k M.
Proof. intros O A X [b e0 e1 l a] k [Ha [Hl|Hl]]; simpl in *; subst; reflexivity. Qed.

Lemma ofold_sum : forall (O : ops) (f : nat -> O) n, add_laws O -> ofold add zero f (seq 0 n) = bigsum n f.
Proof.
  intros O f n L. induction n as [|n IH]; auto.
  rewrite seq_S, ofold_app, IH; [|apply (add_assoc L)|apply (add_comm L)|apply (add_0_l L)]. simpl.
  unfold bigsum, sum_from. rewrite seq_S, fold_left_app. simpl. rewrite (add_comm L (f n)), (add_0_l L); auto.
Qed.
Local Open Scope R_scope.
Lemma ofold_rsum : forall f n, ofold Rplus 0 f (seq 0 n) = rsum n f.
Proof.
  intros f n. induction n as [|n IH]; auto.
  rewrite seq_S, ofold_app, IH by (intros; ring). simpl. ring.
Qed.
Lemma ofold_rmax : forall lowest f n, lowest <= 0 -> (forall i, (i < n)%nat -> 0 <= f i) ->
  Rmax 0 (ofold Rmax lowest f (seq 0 n)) = rmax0 n f /\ ((0 < n)%nat -> ofold Rmax lowest f (seq 0 n) = rmax0 n f).
Proof.
  intros lowest f n Hl. induction n as [|n IH]; intros Hf.
  - simpl. split; [|lia]. unfold Rmax; destruct Rle_dec; lra.
  - destruct IH as [IH _]; [auto|].
    rewrite seq_S, ofold_app; [|apply Rmax_assoc|apply Rmax_comm|unfold Rmax; destruct Rle_dec; auto].
    simpl. set (y := ofold Rmax lowest f (seq 0 n)) in *. rewrite <- IH. specialize (Hf n ltac:(lia)).
    split; [|intros _]; unfold Rmax in *; repeat destruct Rle_dec; lra.
Qed.
Lemma kk_max_exact : forall dv sq (x y : R), @kk_max (exact dv sq) x y = Rmax x y.
Proof. intros. unfold kk_max. destruct (rltb_spec dv sq x y) as [H|H]; unfold Rmax; destruct Rle_dec; lra. Qed.

(** Flattened double sums and maxima. *)
Lemma rsum_app : forall n k f, rsum (n + k) f = rsum n f + rsum k (fun i => f (n + i)%nat).
Proof.
  intros n k f. induction k as [|k IH]; simpl; [rewrite Nat.add_0_r; ring|].
  rewrite Nat.add_succ_r. simpl. rewrite IH. ring.
Qed.
Lemma rmax0_app : forall n k f, rmax0 (n + k) f = Rmax (rmax0 n f) (rmax0 k (fun i => f (n + i)%nat)).
Proof.
  intros n k f. induction k as [|k IH]; simpl.
  - rewrite Nat.add_0_r. symmetry. apply Rmax_left, rmax0_nonneg.
  - rewrite Nat.add_succ_r. simpl. rewrite IH. symmetry. apply Rmax_assoc.
Qed.
Lemma flat_index : forall c n k, (k < c)%nat -> ((n * c + k) / c = n /\ (n * c + k) mod c = k)%nat.
Proof.
  intros c n k H. rewrite Nat.add_comm. split.
  - rewrite Nat.div_add, Nat.div_small by lia. lia.
  - rewrite Nat.mod_add, Nat.mod_small by lia. lia.
Qed.
Lemma rsum_flat : forall r c (g : nat -> nat -> R),
  rsum (r * c) (fun k => g (k / c)%nat (k mod c)%nat) = rsum r (fun i => rsum c (g i)).
Proof.
  intros r c g. induction r as [|r IH]; auto. simpl. rewrite Nat.add_comm, rsum_app, IH. f_equal.
  apply rsum_ext. intros k Hk. destruct (flat_index r Hk) as [-> ->]. auto.
Qed.
Lemma rmax0_flat : forall r c (g : nat -> nat -> R),
  rmax0 (r * c) (fun k => g (k / c)%nat (k mod c)%nat) = rmax0 r (fun i => rmax0 c (g i)).
Proof.
  intros r c g. induction r as [|r IH]; auto. simpl. rewrite Nat.add_comm, rmax0_app, IH. f_equal.
  apply rmax0_ext. intros k Hk. destruct (flat_index r Hk) as [-> ->]. auto.
Qed.
Lemma rsum_scal : forall n c f, rsum n (fun i => c * f i) = c * rsum n f.
Proof. induction n as [|n IH]; intros c f; simpl; [ring|]. rewrite IH. ring. Qed.
Lemma rsum_zero : forall n f, (forall i, (i < n)%nat -> f i = 0) -> rsum n f = 0.
Proof. induction n as [|n IH]; intros f H; simpl; auto. rewrite IH, H; auto; ring. Qed.

(** * The Kokkos norms in exact arithmetic *)
Lemma reduce_sum : forall T (m : mem T) n (body : nat -> R -> prog T R) f (Q : R -> Prop),
  (forall i x, (i < n)%nat -> run (body i x) m = Ok (x + f i) m) -> Q (rsum n f) ->
  reduce_ok n body Rplus 0 m Q.
Proof.
  intros T m n body f Q Hb HQ. apply reduce_ofold with (f := f); try (intros; ring); auto.
  rewrite ofold_rsum; auto.
Qed.
Lemma partial_ext : forall T A (m : mem T) (b1 b2 : nat -> A -> prog T A) j1 j2 e l x,
  (forall x y, j1 x y = j2 x y) -> partial m b1 j1 e l x -> (forall i x, run (b1 i x) m = run (b2 i x) m) ->
  partial m b2 j2 e l x.
Proof.
  intros T A m b1 b2 j1 j2 e l x Hj H Hb. induction H as [|l x i y m' H IH Hy|l1 l2 x y H1 IH1 H2 IH2].
  - constructor.
  - rewrite Hb in Hy. eapply partial_step; eauto.
  - rewrite Hj. constructor; auto.
Qed.
Lemma reduce_max : forall T (m : mem T) dv sq n (body : nat -> R -> prog T R) f (lowest : R) (Q : R -> Prop),
  lowest <= 0 -> (forall i, (i < n)%nat -> 0 <= f i) ->
  (forall i x, (i < n)%nat -> run (body i x) m = Ok (@kk_max (exact dv sq) x (f i)) m) ->
  ((0 < n)%nat -> Q (rmax0 n f)) -> (n = 0%nat -> Q lowest) ->
  reduce_ok n body (@kk_max (exact dv sq)) lowest m Q.
Proof.
  intros T m dv sq n body f lowest Q Hl Hf Hb HQ HQ0.
  assert (E : forall x y, @kk_max (exact dv sq) x y = Rmax x y) by (intros; apply kk_max_exact).
  assert (R0 : reduce_ok n body Rmax lowest m Q).
  { apply reduce_ofold with (f := f); try (intros; apply Rmax_assoc || apply Rmax_comm); auto.
    - unfold Rmax; destruct Rle_dec; auto.
    - intros i x Hi. rewrite Hb, E; auto.
    - destruct n as [|n]; [apply HQ0; auto|].
      rewrite (proj2 (ofold_rmax f Hl Hf)) by lia. apply HQ; lia. }
  destruct R0 as [H1 H2]. split.
  - intros l x i Hn Hr Hp. eapply H1; eauto. eapply partial_ext; eauto.
  - intros l x Hl' Hp. eapply H2; eauto. eapply partial_ext; eauto.
Qed.

Section N.
Variables (O : ops) (dv : R -> R -> R) (sq : R -> R) (M : mags O (exact dv sq)).

Ltac vrun := intros; rewrite run_bind; erewrite run_vget by (eauto; simpl; lia); reflexivity.

Lemma kk_abs_sum_ok : forall (m : mem O) x f (init : R), plain_v x -> vec_holds m x f ->
  red_returns (kk_vector_abs_sum M x init) m (fun r => r = init + rsum (vext x) (fun i => mag M (f i))).
Proof.
  intros m x f init Hp Hx. apply view_v_holds in Hx; auto. cbn [red_returns kk_vector_abs_sum].
  apply reduce_sum with (f := fun i => mag M (f i)); [vrun|]. simpl. ring.
Qed.
Lemma kk_norm2_ok : forall (m : mem O) x f (init : R), exact_sqrt sq -> plain_v x -> vec_holds m x f ->
  0 <= rsum (vext x) (fun i => mag M (f i) * mag M (f i)) + init ->
  red_returns (kk_vector_norm2 M x init) m (fun r => r = sqrt (init + rsum (vext x) (fun i => mag M (f i) * mag M (f i)))).
Proof.
  intros m x f init Hs Hp Hx H0. apply view_v_holds in Hx; auto. cbn [red_returns kk_vector_norm2].
  apply reduce_sum with (f := fun i => mag M (f i) * mag M (f i)); [vrun|]. simpl. rewrite Hs by auto. f_equal. ring.
Qed.
Lemma kk_ssq_ok : forall (m : mem O) x f (init : @sum_of_squares_result (exact dv sq)) (lowest : R), lowest <= 0 -> exact_div dv ->
  (forall v, 0 <= mag M v) -> plain_v x -> vec_holds m x f ->
  0 < rmax0 (vext x) (fun i => mag M (f i)) ->
  let mx := rmax0 (vext x) (fun i => mag M (f i)) in
  let rsf := Rmax mx (scaling_factor init) in
  red_returns (kk_vector_sum_of_squares M lowest x init) m (fun r =>
    scaling_factor r = rsf /\
    scaling_factor r * scaling_factor r * scaled_sum_of_squares r =
      rsum (vext x) (fun i => mag M (f i) * mag M (f i))
      + (rsf / mx) * (rsf / mx) * (scaling_factor init * scaling_factor init * scaled_sum_of_squares init)).
Proof.
  intros m x f init lowest Hl Hdv H0 Hp Hx Hmx mx rsf. apply view_v_holds in Hx; auto. cbn [red_returns kk_vector_sum_of_squares].
  apply reduce_max with (f := fun i => mag M (f i)); auto; [vrun| |].
  - intros Hn. assert (Hr : @std_max (exact dv sq) mx (scaling_factor init) = rsf) by apply std_max_exact.
    apply reduce_sum with (f := fun i => (mag M (f i) / rsf) * (mag M (f i) / rsf)).
    + intros i s Hi. rewrite run_bind. erewrite run_vget by (eauto; simpl; lia). cbn.
      assert (Hr' : 0 < rsf) by (eapply Rlt_le_trans; [exact Hmx|apply Rmax_l]).
      change (@std_max (exact dv sq) (rmax0 (vext x) (fun i0 => mag M (f i0))) (scaling_factor init)) with (@std_max (exact dv sq) mx (scaling_factor init)).
      rewrite Hr, Hdv by lra. reflexivity.
    + cbn [red_returns]. fold mx. rewrite Hr. split; [reflexivity|].
      assert (Hr' : 0 < rsf) by (eapply Rlt_le_trans; [exact Hmx|apply Rmax_l]). cbn.
      rewrite Hdv by (apply Rmult_integral_contrapositive; split; unfold mx; lra).
      rewrite (@rsum_ext (vext x) _ (fun i => / (rsf * rsf) * (mag M (f i) * mag M (f i)))), rsum_scal.
      * field. split; unfold mx; lra.
      * intros. field. lra.
  - intros Hn. exfalso. rewrite Hn in Hmx. simpl in Hmx. lra.
Qed.
Lemma kk_ssq_empty : forall (m : mem O) x (init : @sum_of_squares_result (exact dv sq)) (lowest : R), lowest <= 0 ->
  vext x = 0%nat -> 0 <= scaling_factor init ->
  red_returns (kk_vector_sum_of_squares M lowest x init) m (fun r =>
    scaling_factor r = scaling_factor init /\
    scaled_sum_of_squares r = 0 + dv (scaling_factor init * scaling_factor init * scaled_sum_of_squares init) (lowest * lowest)).
Proof.
  intros m x init lowest Hl Hn Hi. cbn [red_returns kk_vector_sum_of_squares]. rewrite Hn.
  apply reduce_max with (f := fun _ => 0); auto; try (intros; lra || lia).
  intros _. apply reduce_sum with (f := fun _ => 0); [intros; lia|]. cbn. split; auto.
  change (@std_max (exact dv sq) lowest (scaling_factor init) = scaling_factor init). rewrite std_max_exact. apply Rmax_right. lra.
Qed.
Lemma line_sum_ok : forall (m : mem O) n (el : nat -> prog O O) (f : nat -> O), (0 < n)%nat ->
  (forall j, (j < n)%nat -> run (el j) m = Ok (f j) m) ->
  run (kk_line_sum M n el) m = Ok (rsum n (fun j => mag M (f j))) m.
Proof.
  intros m n el f Hn He. unfold kk_line_sum. rewrite run_bind, He by auto.
  assert (R : returns (fold_range 1 n (fun j s => bind (el j) (fun a => Ret (@radd (exact dv sq) s (eabs M a)))) (eabs M (f 0%nat))) m
    (fun r => r = rsum n (fun j => mag M (f j)))).
  { apply (returns_fold (fun k (s : exact dv sq) => s = rsum k (fun j => mag M (f j)))); [lia| |].
    - simpl. unfold mag. symmetry. apply Rplus_0_l.
    - intros i a Hi ->. exists (rsum (S i) (fun j => mag M (f j))). split; auto. rewrite run_bind, He by lia. reflexivity. }
  destruct R as (r & Hr & ->). exact Hr.
Qed.
Lemma kk_inf_norm_ok : forall (m : mem O) A a (init lowest : R), lowest <= 0 -> (forall v, 0 <= mag M v) -> plain_m A -> mat_holds m A a ->
  red_returns (kk_matrix_inf_norm M lowest A init) m (fun r =>
    r = init + rmax0 (ext0 A) (fun i => rsum (ext1 A) (fun j => mag M (a i j)))).
Proof.
  intros m A a init lowest Hl H0 Hp HA. unfold kk_matrix_inf_norm.
  destruct (Nat.eqb_spec (ext0 A) 0) as [E|E]; [rewrite E; simpl; ring|].
  destruct (Nat.eqb_spec (ext1 A) 0) as [E1|E1].
  - rewrite E1. simpl. symmetry. transitivity (init + 0); [f_equal|ring].
    clear. induction (ext0 A) as [|n IH]; simpl; auto. rewrite IH. apply Rmax_left; lra.
  - cbn [orb]. rewrite rview_plain by auto. cbn [red_returns].
    apply reduce_max with (f := fun i => rsum (ext1 A) (fun j => mag M (a i j))); auto.
    + intros. apply rsum_nonneg; auto.
    + intros i x Hi. rewrite run_bind. erewrite line_sum_ok; [reflexivity|lia|].
      intros j Hj. eapply run_mget; eauto. exact I.
    + lia.
Qed.
Lemma kk_one_norm_ok : forall (m : mem O) A a (init lowest : R), lowest <= 0 -> (forall v, 0 <= mag M v) -> plain_m A -> mat_holds m A a ->
  (0 < ext0 A)%nat ->
  red_returns (kk_matrix_one_norm M lowest A init) m (fun r =>
    r = init + rmax0 (ext1 A) (fun j => rsum (ext0 A) (fun i => mag M (a i j)))).
Proof.
  intros m A a init lowest Hl H0 Hp HA Hr. unfold kk_matrix_one_norm.
  destruct (Nat.eqb_spec (ext1 A) 0) as [E|E]; [rewrite E; simpl; ring|].
  rewrite rview_plain by auto. cbn [red_returns].
  apply reduce_max with (f := fun j => rsum (ext0 A) (fun i => mag M (a i j))); auto.
  - intros. apply rsum_nonneg; auto.
  - intros i x Hi. rewrite run_bind. erewrite line_sum_ok; [reflexivity|lia|].
    intros j Hj. apply (@run_mget O m A all2 a j i); auto. exact I.
  - lia.
Qed.
(** Without rows the first read of a column is out of range. *)
Lemma kk_one_norm_no_rows : forall (m : mem O) A (init lowest : R) Q, plain_m A -> ext0 A = 0%nat -> (0 < ext1 A)%nat ->
  ~ red_returns (kk_matrix_one_norm M lowest A init) m Q.
Proof.
  intros m A init lowest Q Hp Hr Hc. unfold kk_matrix_one_norm. destruct (Nat.eqb_spec (ext1 A) 0) as [E|E]; [lia|].
  rewrite rview_plain by auto. cbn [red_returns]. intros [H _].
  destruct (H [] lowest 0%nat) as [y Hy].
  - constructor; [simpl; tauto|constructor].
  - intros k [<-|[]]. auto.
  - constructor.
  - rewrite Hr in Hy. unfold kk_line_sum in Hy. rewrite !run_bind in Hy.
    unfold mget in Hy. rewrite Hr in Hy. simpl in Hy. discriminate Hy.
Qed.
Lemma kk_frob_ok : forall (m : mem O) A a (init lowest : R), lowest <= 0 -> exact_div dv -> exact_sqrt sq -> (forall v, 0 <= mag M v) ->
  plain_m A -> mat_holds m A a -> (1 < ext0 A * ext1 A)%nat ->
  0 <= init + rsum (ext0 A) (fun i => rsum (ext1 A) (fun j => mag M (a i j) * mag M (a i j))) ->
  red_returns (kk_matrix_frob_norm M lowest A init) m (fun r =>
    r = sqrt (init + rsum (ext0 A) (fun i => rsum (ext1 A) (fun j => mag M (a i j) * mag M (a i j))))).
Proof.
  intros m A a init lowest Hl Hdv Hsq H0 Hp HA Hn Hpos. unfold kk_matrix_frob_norm.
  destruct (Nat.eqb_spec (ext0 A) 0) as [E|E]; [rewrite E in Hn; simpl in Hn; lia|].
  destruct (Nat.eqb_spec (ext1 A) 0) as [E1|E1]; [rewrite E1 in Hn; lia|]. cbn [orb].
  replace ((ext0 A =? 1)%nat && (ext1 A =? 1)%nat)%bool with false
    by (destruct (Nat.eqb_spec (ext0 A) 1), (Nat.eqb_spec (ext1 A) 1); simpl; auto; nia).
  rewrite rview_plain by auto. cbn [red_returns].
  assert (Hel : forall k, (k < ext0 A * ext1 A)%nat -> run (mget A (k / ext1 A) (k mod ext1 A)) m = Ok (a (k / ext1 A)%nat (k mod ext1 A)%nat) m).
  { intros k Hk. eapply run_mget; eauto; [apply Nat.div_lt_upper_bound; lia|apply Nat.mod_upper_bound; lia|exact I]. }
  set (g := fun i j => mag M (a i j)).
  set (mx := rmax0 (ext0 A * ext1 A) (fun k => g (k / ext1 A)%nat (k mod ext1 A)%nat)).
  apply reduce_max with (f := fun k => g (k / ext1 A)%nat (k mod ext1 A)%nat); auto.
  - intros; apply H0.
  - intros k x Hk. rewrite run_bind, Hel by auto. reflexivity.
  - intros _. fold mx. assert (Hmx : 0 <= mx) by apply rmax0_nonneg.
    destruct (Req_dec mx 0) as [Ez|Ez].
    + rewrite Ez. apply reduce_sum with (f := fun k => dv (g (k / ext1 A)%nat (k mod ext1 A)%nat) 0 * dv (g (k / ext1 A)%nat (k mod ext1 A)%nat) 0).
      * intros k x Hk. rewrite run_bind, Hel by auto. reflexivity.
      * cbn. rewrite Rmult_0_l, Rmult_0_l.
        assert (Z : rsum (ext0 A) (fun i => rsum (ext1 A) (fun j => mag M (a i j) * mag M (a i j))) = 0).
        { rewrite <- (rsum_flat _ _ (fun i j => mag M (a i j) * mag M (a i j))). apply rsum_zero. intros k Hk.
          assert (B := rmax0_ge (fun k => g (k / ext1 A)%nat (k mod ext1 A)%nat) Hk). fold mx in B. cbv beta in B.
          unfold g in B. specialize (H0 (a (k / ext1 A)%nat (k mod ext1 A)%nat)). replace (mag M _) with 0 by lra. ring. }
        rewrite Z in *. apply Hsq. lra.
    + apply reduce_sum with (f := fun k => / (mx * mx) * (g (k / ext1 A)%nat (k mod ext1 A)%nat * g (k / ext1 A)%nat (k mod ext1 A)%nat)).
      * intros k x Hk. rewrite run_bind, Hel by auto. cbn. rewrite Hdv by auto. do 2 f_equal. unfold g, mag. field. auto.
      * cbn. rewrite rsum_scal, (rsum_flat _ _ (fun i j => g i j * g i j)).
        replace (init + mx * mx * (/ (mx * mx) * rsum (ext0 A) (fun i => rsum (ext1 A) (fun j => g i j * g i j))))
          with (init + rsum (ext0 A) (fun i => rsum (ext1 A) (fun j => g i j * g i j))) by (field; auto).
        apply Hsq. auto.
  - nia.
Qed.
Lemma kk_frob_small : forall (m : mem O) A a (init lowest : R), mat_holds m A a -> (ext0 A * ext1 A <= 1)%nat ->
  red_returns (kk_matrix_frob_norm M lowest A init) m (fun r =>
    r = init + (if (ext0 A * ext1 A =? 0)%nat then 0 else mag M (a 0%nat 0%nat))).
Proof.
  intros m A a init lowest HA Hn. unfold kk_matrix_frob_norm.
  destruct (Nat.eqb_spec (ext0 A) 0) as [E|E]; [rewrite E; simpl; ring|].
  destruct (Nat.eqb_spec (ext1 A) 0) as [E1|E1]; [rewrite E1, Nat.mul_0_r; simpl; ring|].
  assert (ext0 A = 1 /\ ext1 A = 1)%nat as [-> ->] by nia. cbn [orb andb Nat.eqb red_returns Nat.mul Nat.add].
  eexists. split; [rewrite run_bind; erewrite run_mget; eauto; [reflexivity| | |exact I]; nia|]. reflexivity.
Qed.
End N.

(** * dot *)
Lemma kk_dot_ok : forall (O : ops), add_laws O -> forall (m : mem O) x y f g (init : O), plain_v x -> plain_v y ->
  vec_holds m x f -> vec_holds m y g -> vext x = vext y ->
  red_returns (kk_dot x y init) m (fun r => r = (bigsum (vext x) (fun i => f i * g i) + init)%sc).
Proof.
  intros O L m x y f g init Px Py Hx Hy E. apply view_v_holds in Hx; auto. apply view_v_holds in Hy; auto.
  unfold kk_dot. rewrite E, Nat.eqb_refl. cbn [red_returns]. rewrite <- E.
  apply reduce_ofold with (f := fun i => (f i * g i)%sc).
  - apply (add_assoc L).
  - apply (add_comm L).
  - apply (add_0_l L).
  - intros i s Hi. rewrite !run_bind. erewrite run_vget by (eauto; simpl; lia). cbn beta iota.
    rewrite run_bind. erewrite run_vget by (eauto; simpl; lia). reflexivity.
  - rewrite (ofold_sum _ _ L). reflexivity.
Qed.
Lemma kk_dot_mismatch : forall (O : ops) (x y : vec O) init, vext x <> vext y -> kk_dot x y init = RThrow.
Proof. intros O x y init H. unfold kk_dot. destruct (Nat.eqb_spec (vext x) (vext y)); congruence. Qed.

(** * Comparison with the inline algorithms *)
Section Same.
Variables (O : ops) (dv : R -> R -> R) (sq : R -> R) (M : mags O (exact dv sq)).
Lemma kk_abs_sum_same : forall (m : mem O) x f (init : R), arithmetic M = true -> plain_v x -> vec_holds m x f ->
  red_same_as (kk_vector_abs_sum M x init) (vector_abs_sum M x init) m.
Proof.
  intros m x f init Ha Hp Hx. eapply red_mono; [eapply kk_abs_sum_ok; eauto|]. intros r ->. apply abs_sum_arith_ok; auto.
Qed.
Lemma kk_norm2_same : forall (m : mem O) x f, exact_div dv -> exact_sqrt sq -> (forall v, 0 <= mag M v) -> plain_v x -> vec_holds m x f ->
  red_same_as (kk_vector_norm2 M x (0 : exact dv sq)) (vector_two_norm M x (0 : exact dv sq)) m.
Proof.
  intros m x f Hdv Hsq H0 Hp Hx. eapply red_mono; [eapply kk_norm2_ok; eauto|].
  - rewrite Rplus_0_r. apply rsum_nonneg. intros i _. apply Rmult_le_pos; apply H0.
  - intros r ->. eapply returns_conseq; [apply two_norm_ok; eauto|]. intros r ->. rewrite !Rplus_0_l. auto.
Qed.
Lemma kk_inf_norm_same : forall (m : mem O) A a (init lowest : R), lowest <= 0 -> (forall v, 0 <= mag M v) -> plain_m A -> mat_holds m A a ->
  red_same_as (kk_matrix_inf_norm M lowest A init) (matrix_inf_norm M A init) m.
Proof.
  intros m A a init lowest Hl H0 Hp HA. eapply red_mono; [eapply kk_inf_norm_ok; eauto|]. intros r ->. apply inf_norm_ok; auto.
Qed.
Lemma kk_one_norm_same : forall (m : mem O) A a (init lowest : R), lowest <= 0 -> (forall v, 0 <= mag M v) -> plain_m A -> mat_holds m A a ->
  (0 < ext0 A)%nat -> red_same_as (kk_matrix_one_norm M lowest A init) (matrix_one_norm M A init) m.
Proof.
  intros m A a init lowest Hl H0 Hp HA Hr. eapply red_mono; [eapply kk_one_norm_ok; eauto|]. intros r ->. apply one_norm_ok; auto.
Qed.
Lemma kk_frob_0 : forall (m : mem O) A a (lowest : R), lowest <= 0 -> exact_div dv -> exact_sqrt sq -> (forall v, 0 <= mag M v) ->
  plain_m A -> mat_holds m A a ->
  red_returns (kk_matrix_frob_norm M lowest A (0 : exact dv sq)) m (fun r =>
    r = sqrt (rsum (ext0 A) (fun i => rsum (ext1 A) (fun j => mag M (a i j) * mag M (a i j))))).
Proof.
  intros m A a lowest Hl Hdv Hsq H0 Hp HA.
  destruct (le_lt_dec (ext0 A * ext1 A) 1) as [H|H].
  - eapply red_mono; [eapply kk_frob_small; eauto|]. intros r ->. rewrite Rplus_0_l.
    destruct (Nat.eqb_spec (ext0 A * ext1 A) 0) as [E|E].
    + rewrite <- (rsum_flat _ _ (fun i j => mag M (a i j) * mag M (a i j))), E. simpl. rewrite sqrt_0; auto.
    + assert (ext0 A = 1 /\ ext1 A = 1)%nat as [-> ->] by (apply Nat.eq_mul_1; lia). simpl. rewrite !Rplus_0_l, sqrt_square; auto.
  - eapply red_mono; [eapply kk_frob_ok; eauto|].
    + rewrite Rplus_0_l. apply rsum_nonneg. intros i _. apply rsum_nonneg. intros j _. apply Rmult_le_pos; apply H0.
    + intros r ->. rewrite Rplus_0_l. auto.
Qed.
Lemma kk_ssq_same : forall (m : mem O) x f (init : @sum_of_squares_result (exact dv sq)) (lowest : R), lowest <= 0 -> exact_div dv ->
  (forall v, 0 <= mag M v) -> plain_v x -> vec_holds m x f ->
  0 <= scaling_factor init -> 0 < rmax0 (vext x) (fun i => mag M (f i)) ->
  (scaling_factor init <= rmax0 (vext x) (fun i => mag M (f i)) \/ (scaled_sum_of_squares init : R) = 0) ->
  red_returns (kk_vector_sum_of_squares M lowest x init) m (fun r =>
    scaling_factor r = Rmax (rmax0 (vext x) (fun i => mag M (f i))) (scaling_factor init) /\
    scaling_factor r * scaling_factor r * scaled_sum_of_squares r =
      scaling_factor init * scaling_factor init * scaled_sum_of_squares init
      + rsum (vext x) (fun i => mag M (f i) * mag M (f i))).
Proof.
  intros m x f init lowest Hl Hdv H0 Hp Hx Hi Hmx Hc. eapply red_mono; [eapply kk_ssq_ok; eauto|].
  intros r [E1 E2]. split; auto. etransitivity; [exact E2|].
  destruct Hc as [Hc|Hc].
  - rewrite (Rmax_left _ _ Hc). field. lra.
  - rewrite Hc. ring.
Qed.
End Same.
Lemma kk_dot_same : forall (O : ops), add_laws O -> forall (m : mem O) x y f g (init : O), plain_v x -> plain_v y ->
  vec_holds m x f -> vec_holds m y g -> vext x = vext y ->
  red_same_as (kk_dot x y init) (dot x y init) m.
Proof.
  intros O L m x y f g init Px Py Hx Hy E. eapply red_mono; [eapply kk_dot_ok; eauto|]. intros r ->.
  destruct (@dot_ok O m x y f g init E Hx Hy) as (r & m' & Hr & -> & ->). exists (sum_from init 0 (vext x) (fun k => (f k * g k)%sc)).
  split; auto. rewrite (sum_from_init L). rewrite (add_comm L). reflexivity.
Qed.

(** * Transposed matrices: the algorithm runs on the matrix before transposition *)
Definition base_m (O : ops) (A : mat O) (l : layout) : mat O := Mat (mbase A) (ext1 A) (ext0 A) l ADefault.
Lemma rview_trans : forall (O : ops) A X (M : mat O) l (k : mat O -> red O A X), mlay M = LTrans l -> l = LLeft \/ l = LRight ->
  rview_m M k = k (base_m M l).
Proof. intros O A X M l k HM [-> | ->]; unfold rview_m; rewrite HM; reflexivity. Qed.
Lemma base_m_plain : forall (O : ops) (A : mat O) l, l = LLeft \/ l = LRight -> plain_m (base_m A l).
Proof. intros O A l Hl. split; auto. Qed.
Lemma base_m_holds : forall (O : ops) (m : mem O) (A : mat O) l a, mlay A = LTrans l -> l = LLeft \/ l = LRight -> macc A = ADefault ->
  mat_holds m A a -> mat_holds m (base_m A l) (fun i j => a j i).
Proof.
  intros O m A l a HA Hl Hc H i j Hi Hj _. destruct (H j i Hj Hi I) as (v & Hv & E). exists v. rewrite Hc in E.
  split; auto. rewrite <- Hv. f_equal. unfold maddr. rewrite HA. destruct Hl as [-> | ->]; reflexivity.
Qed.
Lemma rsum_swap : forall n k (g : nat -> nat -> R), rsum n (fun i => rsum k (g i)) = rsum k (fun j => rsum n (fun i => g i j)).
Proof.
  induction n as [|n IH]; intros k g; simpl.
  - induction k as [|k IHk]; simpl; auto. rewrite <- IHk. ring.
  - rewrite IH. clear IH. induction k as [|k IHk]; simpl; [ring|]. rewrite <- IHk. ring.
Qed.
Section Transposed.
Variables (O : ops) (dv : R -> R -> R) (sq : R -> R) (M : mags O (exact dv sq)).
Lemma kk_inf_norm_trans : forall (m : mem O) A l a (init lowest : R), lowest <= 0 -> (forall v, 0 <= mag M v) ->
  mlay A = LTrans l -> l = LLeft \/ l = LRight -> macc A = ADefault -> mat_holds m A a -> (0 < ext0 A)%nat ->
  red_returns (kk_matrix_inf_norm M lowest A init) m (fun r =>
    r = init + rmax0 (ext1 A) (fun j => rsum (ext0 A) (fun i => mag M (a i j)))).
Proof.
  intros m A l a init lowest Hl H0 HA Hll Hc HH Hr.
  assert (E : kk_matrix_inf_norm M lowest A init = kk_matrix_inf_norm M lowest (base_m A l) init).
  { unfold kk_matrix_inf_norm. rewrite (rview_trans _ _ HA Hll), (rview_plain _ (base_m_plain A Hll)).
    cbn [base_m ext0 ext1]. rewrite orb_comm. reflexivity. }
  rewrite E. eapply red_mono; [apply kk_inf_norm_ok with (a := fun i j => a j i); auto|].
  - apply base_m_plain; auto.
  - apply base_m_holds; auto.
  - intros r ->. reflexivity.
Qed.
Lemma kk_one_norm_trans : forall (m : mem O) A l a (init lowest : R), lowest <= 0 -> (forall v, 0 <= mag M v) ->
  mlay A = LTrans l -> l = LLeft \/ l = LRight -> macc A = ADefault -> mat_holds m A a -> (0 < ext0 A)%nat -> (0 < ext1 A)%nat ->
  red_returns (kk_matrix_one_norm M lowest A init) m (fun r =>
    r = init + rmax0 (ext0 A) (fun i => rsum (ext1 A) (fun j => mag M (a i j)))).
Proof.
  intros m A l a init lowest Hl H0 HA Hll Hc HH Hr Hn.
  assert (E : kk_matrix_one_norm M lowest A init = kk_matrix_one_norm M lowest (base_m A l) init).
  { unfold kk_matrix_one_norm. rewrite (rview_trans _ _ HA Hll), (rview_plain _ (base_m_plain A Hll)).
    cbn [base_m ext0 ext1]. destruct (Nat.eqb_spec (ext1 A) 0), (Nat.eqb_spec (ext0 A) 0); auto; lia. }
  rewrite E. eapply red_mono; [apply kk_one_norm_ok with (a := fun i j => a j i); auto|].
  - apply base_m_plain; auto.
  - apply base_m_holds; auto.
  - intros r ->. reflexivity.
Qed.
Lemma kk_frob_trans : forall (m : mem O) A l a (lowest : R), lowest <= 0 -> exact_div dv -> exact_sqrt sq -> (forall v, 0 <= mag M v) ->
  mlay A = LTrans l -> l = LLeft \/ l = LRight -> macc A = ADefault -> mat_holds m A a ->
  red_returns (kk_matrix_frob_norm M lowest A (0 : exact dv sq)) m (fun r =>
    r = sqrt (rsum (ext0 A) (fun i => rsum (ext1 A) (fun j => mag M (a i j) * mag M (a i j))))).
Proof.
  intros m A l a lowest Hl Hdv Hsq H0 HA Hll Hc HH.
  assert (HB : mat_holds m (base_m A l) (fun i j => a j i)) by (apply base_m_holds; auto).
  eapply red_mono; [|intros r Hr; rewrite rsum_swap; exact Hr].
  assert (K := kk_frob_0 M Hl Hdv Hsq H0 (base_m_plain A Hll) HB).
  unfold kk_matrix_frob_norm in *. rewrite (rview_trans _ _ HA Hll). rewrite (rview_plain _ (base_m_plain A Hll)) in K.
  cbn [base_m ext0 ext1] in *. rewrite orb_comm, andb_comm.
  destruct ((ext1 A =? 0)%nat || (ext0 A =? 0)%nat)%bool eqn:E0; [exact K|].
  destruct ((ext1 A =? 1)%nat && (ext0 A =? 1)%nat)%bool eqn:E1; [|exact K].
  apply andb_true_iff in E1. destruct E1 as [E1 E2]. apply Nat.eqb_eq in E1, E2.
  destruct K as (v & Hv & K). exists v. split; [|exact K]. rewrite <- Hv. rewrite !run_bind.
  erewrite (@run_mget O m A all2 a 0%nat 0%nat); eauto; try lia; try exact I.
  erewrite (@run_mget O m (base_m A l) all2 (fun i j => a j i) 0%nat 0%nat); eauto; simpl; try lia; try exact I.
Qed.
End Transposed.

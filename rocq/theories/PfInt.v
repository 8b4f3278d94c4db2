(** Integer elements: unsigned types form a ring; signed types are exact as long as magnitudes stay in range. *)
From Coq Require Import List Arith ZArith Lia Bool Eqdep_dec.
From Verif Require Import Mem Scalar View Spec SpecR SpecI Norm Int Blas1 Blas2 Blas3 Wp Sums PfBlas1 PfBlas2 PfBlas3 PfNorm.
Local Open Scope Z_scope.

Section Unsigned.
Variable w : Z.
Lemma uval_inj : forall x y : uint w, uval x = uval y -> x = y.
Proof.
  intros [x Hx] [y Hy]. simpl. intros ->. f_equal. apply UIP_dec. apply Bool.bool_dec.
Qed.
Lemma uval_mod : forall x : uint w, uval x mod 2 ^ w = uval x.
Proof. intros [x Hx]. simpl. apply Z.eqb_eq; auto. Qed.
Lemma uint_ring : ring_laws (uint_ops w).
Proof.
  split; [split| | | | | | | |]; intros; apply uval_inj; simpl;
  repeat rewrite ?Zplus_mod_idemp_l, ?Zplus_mod_idemp_r, ?Zmult_mod_idemp_l, ?Zmult_mod_idemp_r.
  - f_equal; ring.
  - f_equal; ring.
  - apply uval_mod.
  - rewrite Z.mul_add_distr_l. reflexivity.
  - rewrite Z.mul_add_distr_r. reflexivity.
  - f_equal; ring.
  - rewrite Z.mul_1_l. apply uval_mod.
  - rewrite Z.mul_1_r. apply uval_mod.
  - reflexivity.
  - rewrite Z.mul_0_r. reflexivity.
  - rewrite Z.sub_add. apply uval_mod.
Qed.
Lemma uint_comm : mul_commutes (uint_ops w).
Proof. intros x y. apply uval_inj. simpl. f_equal. ring. Qed.
Lemma uint_conj : conj_laws (uint_ops w).
Proof. split; intros; try reflexivity. apply uval_inj; simpl. f_equal. ring. Qed.

Lemma zsum_ext : forall n f g, (forall k, (k < n)%nat -> f k = g k) -> zsum n f = zsum n g.
Proof. induction n; simpl; intros; auto. rewrite (IHn f g), H; auto. Qed.
Lemma zsum_shift : forall n f, zsum (S n) f = f 0%nat + zsum n (fun k => f (S k)).
Proof. induction n; intros; [simpl; lia|]. change (zsum (S (S n)) f) with (zsum (S n) f + f (S n)). rewrite IHn. simpl. lia. Qed.
Lemma sum_from_uint : forall n lo (s : uint_ops w) (f : nat -> uint_ops w),
  uval (@sum_from (uint_ops w) s lo n f) = (uval s + zsum n (fun k => uval (f (lo + k)%nat))) mod 2 ^ w.
Proof.
  induction n; intros.
  - simpl. rewrite Z.add_0_r. symmetry. apply uval_mod.
  - unfold sum_from in *. simpl seq. cbn [fold_left]. rewrite IHn. rewrite zsum_shift. simpl.
    rewrite Zplus_mod_idemp_l. f_equal. rewrite Nat.add_0_r, Z.add_assoc. apply (f_equal (Z.add _)).
    apply zsum_ext. intros k _. f_equal. f_equal. lia.
Qed.
Lemma zsum_mod : forall n f M, zsum n (fun k => f k mod M) mod M = zsum n f mod M.
Proof. induction n; intros; simpl; auto. rewrite Zplus_mod, IHn, Zmod_mod, <- Zplus_mod. reflexivity. Qed.
Lemma sum_prod_uint : forall n (s : uint_ops w) (f g : nat -> uint_ops w),
  uval (@sum_from (uint_ops w) s 0 n (fun k => mul (f k) (g k))) = (uval s + zsum n (fun k => uval (f k) * uval (g k))) mod 2 ^ w.
Proof.
  intros. rewrite sum_from_uint. simpl. rewrite Zplus_mod, zsum_mod, <- Zplus_mod. reflexivity.
Qed.

Lemma dot_uint : forall (m : mem (uint_ops w)) x y f g init, vext x = vext y -> vec_holds m x f -> vec_holds m y g ->
  returns (dot x y init) m (fun r => uval r = (uval init + zsum (vext x) (fun k => uval (f k) * uval (g k))) mod 2 ^ w).
Proof.
  intros m x y f g init E Hx Hy. destruct (dot_ok init E Hx Hy) as (r & m' & Hr & -> & ->). eexists. split; [exact Hr|].
  apply sum_prod_uint.
Qed.
Lemma gemm_uint : forall (m : mem (uint_ops w)) A B E C a b e,
  ext0 C = ext0 A -> ext1 A = ext0 B -> ext1 C = ext1 B -> ext0 E = ext0 C -> ext1 E = ext1 C ->
  mat_holds m A a -> mat_holds m B b -> mat_holds m E e -> mwritable C -> allocated m (mcells C) ->
  disjoint (mcells A) (mcells C) -> disjoint (mcells B) (mcells C) -> disjoint_or_aligned_m E C ->
  succeeds (matrix_product_upd A B E C) m (fun _ m' => exists c, mat_holds m' C c /\
    (forall i j, uval (c i j) = (uval (e i j) + zsum (ext1 A) (fun k => uval (a i k) * uval (b k j))) mod 2 ^ w) /\
    changes_only m m' (mcells C)).
Proof.
  intros. destruct (gemm_upd_ok H H0 H1 H2 H3 H4 H5 H6 H7 H8 H9 H10 H11) as (r & m' & Hr & K1 & K2).
  exists r, m'. split; auto. eexists. split; [exact K1|]. split; auto. intros. apply sum_prod_uint.
Qed.
End Unsigned.

Section Signed.
Variable w : Z.
Notation F := (sint_r w).
Notation SO := (sint_ops w).
Lemma checked_ok : forall z, Z.abs z <= int_max w -> checked w z = Some z.
Proof.
  intros z H. unfold checked, int_max in *. destruct (Z.leb_spec (- 2 ^ (w - 1)) z); [|lia].
  destruct (Z.ltb_spec z (2 ^ (w - 1))); [reflexivity|lia].
Qed.
Lemma zsum_abs : forall n f, Z.abs (zsum n f) <= zsum n (fun k => Z.abs (f k)).
Proof. induction n; intros; simpl; [lia|]. specialize (IHn f). lia. Qed.
Lemma zsum_nonneg : forall n f, (forall k, (k < n)%nat -> 0 <= f k) -> 0 <= zsum n f.
Proof. induction n; intros; simpl; [lia|]. specialize (IHn f ltac:(auto)). specialize (H n ltac:(lia)). lia. Qed.
Lemma zsum_part : forall n m f, (n <= m)%nat -> (forall k, 0 <= f k) -> zsum n f <= zsum m f.
Proof. induction 1; intros; simpl; [lia|]. specialize (H0 m) as Q. specialize (IHle H0). lia. Qed.

Lemma sum_from_S : forall (O : ops) (s : O) n f, sum_from s 0 (S n) f = add (sum_from s 0 n f) (f n).
Proof. intros. unfold sum_from. rewrite seq_S, fold_left_app. reflexivity. Qed.
Lemma sum_prod_sint : forall n s (f g : nat -> Z),
  Z.abs s + zsum n (fun k => Z.abs (f k * g k)) <= int_max w ->
  @sum_from SO (Some s) 0 n (fun k => @mul SO (Some (f k)) (Some (g k))) = Some (s + zsum n (fun k => f k * g k)).
Proof.
  induction n; intros s f g H.
  - simpl. rewrite Z.add_0_r. reflexivity.
  - rewrite sum_from_S. cbn [zsum] in H. pose proof (zsum_nonneg n (fun k => Z.abs (f k * g k)) ltac:(intros; lia)).
    rewrite IHn by lia. cbn [add mul sint_ops lift2]. rewrite (checked_ok (f n * g n)) by lia.
    pose proof (zsum_abs n (fun k => f k * g k)) as Q. cbv beta in Q. rewrite checked_ok by lia. simpl. f_equal. lia.
Qed.

Lemma sum_from_ext : forall (O : ops) (s : O) n lo f g, (forall k, (lo <= k < lo + n)%nat -> f k = g k) -> sum_from s lo n f = sum_from s lo n g.
Proof.
  intros O s n. revert s. induction n; intros; auto. unfold sum_from in *. simpl. rewrite (H lo) by lia. apply IHn. intros. apply H. lia.
Qed.

Lemma dot_sint : forall (m : mem SO) x y (f g : nat -> Z) init, vext x = vext y ->
  vec_holds m x (fun i => Some (f i)) -> vec_holds m y (fun i => Some (g i)) ->
  Z.abs init + zsum (vext x) (fun k => Z.abs (f k * g k)) <= int_max w ->
  returns (dot x y (Some init)) m (fun r => r = Some (init + zsum (vext x) (fun k => f k * g k))).
Proof.
  intros m x y f g init E Hx Hy H. destruct (dot_ok (O := SO) (Some init) E Hx Hy) as (r & m' & Hr & -> & ->).
  eexists. split; [exact Hr|]. apply sum_prod_sint; auto.
Qed.
Lemma gemv_sint : forall (m : mem SO) A x y (a : nat -> nat -> Z) (f : nat -> Z),
  vext x = ext1 A -> vext y = ext0 A -> mat_holds m A (fun i j => Some (a i j)) -> vec_holds m x (fun i => Some (f i)) -> vwritable y -> allocated m (vcells y) ->
  disjoint (mcells A) (vcells y) -> disjoint (vcells x) (vcells y) ->
  (forall i, (i < ext0 A)%nat -> zsum (ext1 A) (fun j => Z.abs (a i j * f j)) <= int_max w) ->
  succeeds (matrix_vector_product A x y) m (fun _ m' =>
    vec_holds m' y (fun i => Some (zsum (ext1 A) (fun j => a i j * f j))) /\ changes_only m m' (vcells y)).
Proof.
  intros m A x y a f E1 E2 HA Hx Wy Ay D1 D2 H.
  destruct (gemv_ok E1 E2 HA Hx Wy Ay D1 D2) as (r & m' & Hr & K1 & K2). exists r, m'. split; auto. split; auto.
  assert (E : forall i, (i < ext0 A)%nat -> @bigsum SO (ext1 A) (fun j => @mul SO (Some (a i j)) (Some (f j))) = Some (zsum (ext1 A) (fun j => a i j * f j))).
  { intros i Hi. unfold bigsum. change (@zero SO) with (Some 0). rewrite sum_prod_sint; auto. simpl Z.abs. specialize (H i Hi). lia. }
  intros i Hi. rewrite <- E by lia. apply K1; auto.
Qed.
Lemma gemm_sint : forall (m : mem SO) A B E C (a b e : nat -> nat -> Z),
  ext0 C = ext0 A -> ext1 A = ext0 B -> ext1 C = ext1 B -> ext0 E = ext0 C -> ext1 E = ext1 C ->
  mat_holds m A (fun i j => Some (a i j)) -> mat_holds m B (fun i j => Some (b i j)) -> mat_holds m E (fun i j => Some (e i j)) -> mwritable C -> allocated m (mcells C) ->
  disjoint (mcells A) (mcells C) -> disjoint (mcells B) (mcells C) -> disjoint_or_aligned_m E C ->
  (forall i j, (i < ext0 C)%nat -> (j < ext1 C)%nat -> Z.abs (e i j) + zsum (ext1 A) (fun k => Z.abs (a i k * b k j)) <= int_max w) ->
  succeeds (matrix_product_upd A B E C) m (fun _ m' =>
    mat_holds m' C (fun i j => Some (e i j + zsum (ext1 A) (fun k => a i k * b k j))) /\ changes_only m m' (mcells C)).
Proof.
  intros m A B E C a b e H H0 H1 H2 H3 H4 H5 H6 H7 H8 H9 H10 H11 Hb.
  destruct (gemm_upd_ok H H0 H1 H2 H3 H4 H5 H6 H7 H8 H9 H10 H11) as (r & m' & Hr & K1 & K2).
  exists r, m'. split; auto. split; auto. intros i j Hi Hj HT.
  rewrite <- (sum_prod_sint (ext1 A) (e i j) (a i) (fun k => b k j)); auto. 
Qed.

(** Sums of magnitudes *)
Lemma abs_in_range : forall z, Z.abs z <= int_max w -> sabs w (Some z) = Some (Z.abs z).
Proof. intros z H. simpl. apply checked_ok. lia. Qed.

Lemma step_sint : forall n k (b : nat -> Z) init, (k < n)%nat ->
  Z.abs init + zsum n (fun j => Z.abs (b j)) <= int_max w ->
  @radd F (Some (init + zsum k (fun j => Z.abs (b j)))) (sabs w (Some (b k))) = Some (init + zsum (S k) (fun j => Z.abs (b j))).
Proof.
  intros n i b init Hi H.
  pose proof (zsum_part (S i) n (fun i => Z.abs (b i)) ltac:(lia) ltac:(intros; lia)) as Q. simpl in Q.
  pose proof (zsum_nonneg i (fun i => Z.abs (b i)) ltac:(intros; lia)).
  cbn [radd sint_r lift2]. rewrite abs_in_range by lia. rewrite checked_ok by lia. simpl. f_equal. lia.
Qed.
Ltac sget e := eapply returns_bind with (P := fun v => v = e);
  [first [eapply returns_vget; [eassumption|lia|reflexivity] | eapply returns_mget; [eassumption|lia|lia|reflexivity]]|];
  let v := fresh "v" in intros v ->.
Lemma abs_sum_sint : forall (m : mem SO) x (f : nat -> Z) init, vec_holds m x (fun i => Some (f i)) ->
  Z.abs init + zsum (vext x) (fun i => Z.abs (f i)) <= int_max w ->
  returns (vector_abs_sum (sint_mags w) x (Some init : F)) m (fun r => r = Some (init + zsum (vext x) (fun i => Z.abs (f i)))).
Proof.
  intros m x f init Hx H. unfold vector_abs_sum. cbn [arithmetic sint_mags].
  apply returns_fold with (I := fun n (s : F) => s = Some (init + zsum n (fun i => Z.abs (f i)))); [lia|simpl; f_equal; lia|].
  intros i s Hi ->. sget (Some (f i)). apply returns_ret. apply (step_sint (vext x)); [lia|auto].
Qed.

Lemma max_step : forall init k h, @std_max F (Some (init + h k)) (Some (init + zmax0 k h)) = Some (init + zmax0 (S k) h).
Proof.
  intros. unfold std_max. cbn [rltb sint_r]. simpl zmax0. destruct (Z.ltb_spec (init + h k) (init + zmax0 k h)); f_equal; lia.
Qed.
Lemma zmax0_zero : forall n, zmax0 n (fun _ => 0) = 0.
Proof. induction n; simpl; auto. rewrite IHn. reflexivity. Qed.

Lemma inf_norm_sint : forall (m : mem SO) A (a : nat -> nat -> Z) init, mat_holds m A (fun i j => Some (a i j)) ->
  (forall i, (i < ext0 A)%nat -> Z.abs init + zsum (ext1 A) (fun j => Z.abs (a i j)) <= int_max w) ->
  returns (matrix_inf_norm (sint_mags w) A (Some init : F)) m (fun r =>
    r = Some (init + zmax0 (ext0 A) (fun i => zsum (ext1 A) (fun j => Z.abs (a i j))))).
Proof.
  intros m A a init HA H. unfold matrix_inf_norm.
  destruct (Nat.eqb_spec (ext0 A) 0) as [E0|N0]; [simpl orb; apply returns_ret; rewrite E0; simpl; f_equal; lia|].
  destruct (Nat.eqb_spec (ext1 A) 0) as [E1|N1].
  { simpl orb. apply returns_ret. rewrite E1. simpl. rewrite zmax0_zero. f_equal; lia. }
  simpl orb. destruct ((ext0 A =? 1)%nat && (ext1 A =? 1)%nat) eqn:E.
  { apply andb_prop in E. destruct E as [E1 E2]. apply Nat.eqb_eq in E1, E2. sget (Some (a 0%nat 0%nat)). apply returns_ret.
    specialize (H 0%nat ltac:(lia)). rewrite E1, E2 in *. simpl in *.
    rewrite checked_ok by lia. cbn [radd sint_r lift2]. rewrite checked_ok by lia. f_equal. lia. }
  apply returns_fold with (I := fun i (r : F) => r = Some (init + zmax0 i (fun i => zsum (ext1 A) (fun j => Z.abs (a i j))))); [lia|simpl; f_equal; lia|].
  intros i r Hi ->. eapply returns_bind with (P := fun s : F => s = Some (init + zsum (ext1 A) (fun j => Z.abs (a i j)))).
  - apply returns_fold with (I := fun j (s : F) => s = Some (init + zsum j (fun j => Z.abs (a i j)))); [lia|simpl; f_equal; lia|].
    intros j s Hj ->. sget (Some (a i j)). apply returns_ret. apply (step_sint (ext1 A)); [lia|apply H; lia].
  - intros s ->. apply returns_ret. apply max_step with (h := fun i => zsum (ext1 A) (fun j => Z.abs (a i j))).
Qed.
Lemma one_norm_sint : forall (m : mem SO) A (a : nat -> nat -> Z) init, mat_holds m A (fun i j => Some (a i j)) ->
  (forall j, (j < ext1 A)%nat -> Z.abs init + zsum (ext0 A) (fun i => Z.abs (a i j)) <= int_max w) ->
  returns (matrix_one_norm (sint_mags w) A (Some init : F)) m (fun r =>
    r = Some (init + zmax0 (ext1 A) (fun j => zsum (ext0 A) (fun i => Z.abs (a i j))))).
Proof.
  intros m A a init HA H. unfold matrix_one_norm.
  destruct (Nat.eqb_spec (ext0 A) 0) as [E0|N0]; [simpl orb; apply returns_ret; rewrite E0; simpl; rewrite zmax0_zero; f_equal; lia|].
  destruct (Nat.eqb_spec (ext1 A) 0) as [E1|N1].
  { simpl orb. apply returns_ret. rewrite E1. simpl. f_equal; lia. }
  simpl orb. destruct ((ext0 A =? 1)%nat && (ext1 A =? 1)%nat) eqn:E.
  { apply andb_prop in E. destruct E as [E1 E2]. apply Nat.eqb_eq in E1, E2. sget (Some (a 0%nat 0%nat)). apply returns_ret.
    specialize (H 0%nat ltac:(lia)). rewrite E1, E2 in *. simpl in *.
    rewrite checked_ok by lia. cbn [radd sint_r lift2]. rewrite checked_ok by lia. f_equal. lia. }
  apply returns_fold with (I := fun j (r : F) => r = Some (init + zmax0 j (fun j => zsum (ext0 A) (fun i => Z.abs (a i j))))); [lia|simpl; f_equal; lia|].
  intros j r Hj ->. eapply returns_bind with (P := fun s : F => s = Some (init + zsum (ext0 A) (fun i => Z.abs (a i j)))).
  - apply returns_fold with (I := fun i (s : F) => s = Some (init + zsum i (fun i => Z.abs (a i j)))); [lia|simpl; f_equal; lia|].
    intros i s Hi ->. sget (Some (a i j)). apply returns_ret. apply (step_sint (ext0 A) i (fun i => a i j)); [lia|apply H; lia].
  - intros s ->. apply returns_ret. apply max_step with (h := fun j => zsum (ext0 A) (fun i => Z.abs (a i j))).
Qed.

Lemma idx_sint : forall (m : mem SO) x (f : nat -> Z) size_max, vec_holds m x (fun i => Some (f i)) ->
  (forall i, (i < vext x)%nat -> Z.abs (f i) <= int_max w) ->
  succeeds (@vector_idx_abs_max SO _ (sabs w) (@rltb F) size_max x) m (fun r m' => m' = m /\
    ((vext x = 0%nat /\ r = size_max) \/
     exists k, r = N.of_nat k /\ (k < vext x)%nat /\ (forall i, (i < vext x)%nat -> Z.abs (f i) <= Z.abs (f k)) /\
       (forall i, (i < k)%nat -> Z.abs (f i) < Z.abs (f k)))).
Proof.
  intros m x f size_max Hx H.
  assert (L : forall i j, (i < vext x)%nat -> (j < vext x)%nat ->
    @rltb F (sabs w (Some (f i))) (sabs w (Some (f j))) = (Z.abs (f i) <? Z.abs (f j))).
  { intros i j Hi Hj. rewrite !abs_in_range by (apply H; auto). reflexivity. }
  destruct (@idx_abs_max_ok SO _ (sabs w) (@rltb F) size_max m x (fun i => Some (f i))) as (r & m' & Hr & -> & K); auto.
  - intros i Hi. rewrite L by auto. apply Z.ltb_irrefl.
  - intros i j k Hi Hj Hk. rewrite !L by auto. rewrite !Z.ltb_lt. lia.
  - intros i j k Hi Hj Hk. rewrite !L by auto. rewrite !Z.ltb_lt. lia.
  - exists r, m. split; auto. split; auto. destruct K as [K|(k & K1 & K2 & K3 & K4)]; [left; auto|right].
    exists k. split; auto. split; auto. split.
    + intros i Hi. specialize (K3 i Hi). rewrite L in K3 by auto. apply Z.ltb_ge in K3. auto.
    + intros i Hi. specialize (K4 i Hi). rewrite L in K4 by lia. apply Z.ltb_lt in K4. auto.
Qed.
End Signed.

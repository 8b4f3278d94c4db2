(** Signed integers: when exactly an overflow occurs; triangular solves. *)
From Coq Require Import List Arith ZArith Lia Bool.
From Verif Require Import Mem Scalar View Spec SpecR SpecI SpecSub Norm Idx Int Blas1 Blas2 Blas3 Wp Sums PfBlas1 PfBlas2 PfBlas3 PfNorm PfSub PfInt.
Local Open Scope Z_scope.

Section Signed.
Variable w : Z.
Notation F := (sint_r w).
Notation SO := (sint_ops w).
Lemma checked_spec : forall z, (in_range w z /\ checked w z = Some z) \/ (~ in_range w z /\ checked w z = None).
Proof.
  intros z. unfold checked, in_range, int_max. destruct (Z.leb_spec (- 2 ^ (w - 1)) z), (Z.ltb_spec z (2 ^ (w - 1))); simpl; [left|right..]; split; auto; lia.
Qed.
Definition step_ok (init : Z) (h : nat -> Z) (k : nat) : Prop := in_range w (h k) /\ in_range w (init + zsum (S k) h).

Lemma sum_sint : forall n init (h : nat -> Z) (e : nat -> option Z),
  (forall k, (k < n)%nat -> e k = checked w (h k)) ->
  ((forall k, (k < n)%nat -> step_ok init h k) /\ @sum_from SO (Some init) 0 n e = Some (init + zsum n h)) \/
  ((exists k, (k < n)%nat /\ ~ step_ok init h k) /\ @sum_from SO (Some init) 0 n e = None).
Proof.
  induction n; intros init h e He.
  - left. split; [lia|]. simpl. rewrite Z.add_0_r. reflexivity.
  - rewrite sum_from_S. destruct (IHn init h e) as [[A E]|[(k & Hk & N) E]]; [intros; apply He; lia| |].
    + rewrite E, He by lia. destruct (checked_spec (h n)) as [[R1 ->]|[R1 ->]].
      * cbn [add sint_ops lift2]. rewrite <- Z.add_assoc. change (zsum n h + h n) with (zsum (S n) h).
        destruct (checked_spec (init + zsum (S n) h)) as [[R2 ->]|[R2 ->]]; [left|right]; split; auto.
        -- intros k Hk. destruct (Nat.eq_dec k n) as [->|]; [split; auto|apply A; lia].
        -- exists n. split; [lia|]. intros [_ Q]. auto.
      * right. split; [|reflexivity]. exists n. split; [lia|]. intros [Q _]. auto.
    + right. split; [exists k; split; [lia|auto]|]. rewrite E. reflexivity.
Qed.
Lemma sum_prod_overflow : forall n init (f g : nat -> Z) (r : option Z),
  r = @sum_from SO (Some init) 0 n (fun k => @mul SO (Some (f k)) (Some (g k))) ->
  ((forall k, (k < n)%nat -> step_ok init (fun k => f k * g k) k) -> r = Some (init + zsum n (fun k => f k * g k))) /\
  ((exists k, (k < n)%nat /\ ~ step_ok init (fun k => f k * g k) k) -> r = None).
Proof.
  intros n init f g r ->. destruct (sum_sint n init (fun k => f k * g k) (fun k => @mul SO (Some (f k)) (Some (g k)))) as [[A E]|[(k & Hk & N) E]]; auto.
  - split; auto. intros (k & Hk & N). exfalso. auto.
  - split; auto. intros H. exfalso. auto.
Qed.
Lemma dot_overflow : forall (m : mem SO) x y (f g : nat -> Z) init, vext x = vext y ->
  vec_holds m x (fun i => Some (f i)) -> vec_holds m y (fun i => Some (g i)) ->
  returns (dot x y (Some init)) m (fun r =>
    ((forall k, (k < vext x)%nat -> in_range w (f k * g k) /\ in_range w (init + zsum (S k) (fun k => f k * g k))) ->
       r = Some (init + zsum (vext x) (fun k => f k * g k))) /\
    ((exists k, (k < vext x)%nat /\ ~ (in_range w (f k * g k) /\ in_range w (init + zsum (S k) (fun k => f k * g k)))) -> r = None)).
Proof.
  intros m x y f g init E Hx Hy. destruct (dot_ok (O := SO) (Some init) E Hx Hy) as (r & m' & Hr & -> & ->).
  eexists. split; [exact Hr|]. apply sum_prod_overflow. reflexivity.
Qed.
Lemma gemm_overflow : forall (m : mem SO) A B E C (a b e : nat -> nat -> Z),
  ext0 C = ext0 A -> ext1 A = ext0 B -> ext1 C = ext1 B -> ext0 E = ext0 C -> ext1 E = ext1 C ->
  mat_holds m A (fun i j => Some (a i j)) -> mat_holds m B (fun i j => Some (b i j)) -> mat_holds m E (fun i j => Some (e i j)) -> mwritable C -> allocated m (mcells C) ->
  disjoint (mcells A) (mcells C) -> disjoint (mcells B) (mcells C) -> disjoint_or_aligned_m E C ->
  succeeds (matrix_product_upd A B E C) m (fun _ m' =>
    (exists c : nat -> nat -> option Z, mat_holds (O := SO) m' C c /\ forall i j, (i < ext0 C)%nat -> (j < ext1 C)%nat ->
      ((forall k, (k < ext1 A)%nat -> in_range w (a i k * b k j) /\ in_range w (e i j + zsum (S k) (fun k => a i k * b k j))) ->
         c i j = Some (e i j + zsum (ext1 A) (fun k => a i k * b k j))) /\
      ((exists k, (k < ext1 A)%nat /\ ~ (in_range w (a i k * b k j) /\ in_range w (e i j + zsum (S k) (fun k => a i k * b k j)))) ->
         c i j = None)) /\
    changes_only m m' (mcells C)).
Proof.
  intros m A B E C a b e H H0 H1 H2 H3 H4 H5 H6 H7 H8 H9 H10 H11.
  destruct (gemm_upd_ok H H0 H1 H2 H3 H4 H5 H6 H7 H8 H9 H10 H11) as (r & m' & Hr & K1 & K2).
  exists r, m'. split; auto. split; auto. eexists. split; [exact K1|]. intros i j Hi Hj.
  apply (sum_prod_overflow (ext1 A) (e i j) (a i) (fun k => b k j)). reflexivity.
Qed.
Lemma scale_overflow : forall (m : mem SO) alpha x (f : nat -> Z), vec_holds m x (fun i => Some (f i)) -> vwritable x ->
  succeeds (scale_1 (Some alpha : SO) x) m (fun _ m' =>
    (exists g : nat -> option Z, vec_holds (O := SO) m' x g /\ forall i, (i < vext x)%nat ->
      (in_range w (f i * alpha) -> g i = Some (f i * alpha)) /\ (~ in_range w (f i * alpha) -> g i = None)) /\
    changes_only m m' (vcells x)).
Proof.
  intros m alpha x f Hx Hw. destruct (scale_1_ok (Some alpha : SO) Hx Hw) as (r & m' & Hr & K1 & K2).
  exists r, m'. split; auto. split; auto. eexists. split; [exact K1|]. intros i Hi. cbn [mul sint_ops lift2].
  destruct (checked_spec (f i * alpha)) as [[R ->]|[R ->]]; split; intros; auto; contradiction.
Qed.
Lemma abs_sum_overflow : forall (m : mem SO) x (f : nat -> Z) init, vec_holds m x (fun i => Some (f i)) ->
  returns (vector_abs_sum (sint_mags w) x (Some init : F)) m (fun r =>
    ((forall k, (k < vext x)%nat -> in_range w (Z.abs (f k)) /\ in_range w (init + zsum (S k) (fun k => Z.abs (f k)))) ->
       r = Some (init + zsum (vext x) (fun k => Z.abs (f k)))) /\
    ((exists k, (k < vext x)%nat /\ ~ (in_range w (Z.abs (f k)) /\ in_range w (init + zsum (S k) (fun k => Z.abs (f k))))) -> r = None)).
Proof.
  intros m x f init Hx. unfold vector_abs_sum. cbn [arithmetic sint_mags].
  eapply returns_conseq.
  - apply returns_fold with (I := fun n (s : F) => s = @sum_from SO (Some init) 0 n (fun i => sabs w (Some (f i)))); [lia|reflexivity|].
    intros i s Hi ->. eapply returns_bind with (P := fun v => v = Some (f i)); [eapply returns_vget; [eassumption|lia|reflexivity]|].
    intros v ->. apply returns_ret. rewrite sum_from_S. reflexivity.
  - intros r ->. destruct (sum_sint (vext x) init (fun k => Z.abs (f k)) (fun i => sabs w (Some (f i)))) as [[A E]|[(k & Hk & N) E]]; auto.
    + split; auto. intros (k & Hk & N). exfalso. apply N. apply A. auto.
    + split; auto. intros H. exfalso. apply N. apply H. auto.
Qed.

(** * Triangular solves *)
Lemma diffs_S : forall (s : SO) lo n f, diffs s lo (S n) f = sub (diffs s lo n f) (f (lo + n)%nat).
Proof. intros. unfold diffs. rewrite seq_S, fold_left_app. reflexivity. Qed.
Lemma diffs_sint : forall n lo s (a x : nat -> Z) (f : nat -> option Z),
  (forall k, (lo <= k < lo + n)%nat -> f k = Some (x k)) ->
  Z.abs s + zsum n (fun k => Z.abs (a (lo + k)%nat * x (lo + k)%nat)) <= int_max w ->
  @diffs SO (Some s) lo n (fun k => @mul SO (Some (a k)) (f k)) = Some (s - zsum n (fun k => a (lo + k)%nat * x (lo + k)%nat)).
Proof.
  induction n; intros lo s a x f Hf H.
  - simpl. rewrite Z.sub_0_r. reflexivity.
  - rewrite diffs_S. cbn [zsum] in H. pose proof (zsum_nonneg n (fun k => Z.abs (a (lo + k)%nat * x (lo + k)%nat)) ltac:(intros; lia)).
    rewrite (IHn lo s a x f) by (try (intros; apply Hf; lia); lia). rewrite (Hf (lo + n)%nat) by lia.
    cbn [sub mul sint_ops lift2]. rewrite (checked_ok w (a (lo + n)%nat * x (lo + n)%nat)) by lia.
    pose proof (zsum_abs n (fun k => a (lo + k)%nat * x (lo + k)%nat)) as Q. cbv beta in Q.
    rewrite checked_ok by lia. simpl. f_equal. lia.
Qed.
Lemma zsum_app : forall n k f, zsum (n + k) f = zsum n f + zsum k (fun j => f (n + j)%nat).
Proof. induction k; intros; [rewrite Nat.add_0_r; simpl; lia|]. rewrite Nat.add_succ_r. simpl. rewrite IHk. lia. Qed.
Lemma zsum_0 : forall n f, (forall k, (k < n)%nat -> f k = 0) -> zsum n f = 0.
Proof. induction n; intros; simpl; auto. rewrite IHn, H by auto. reflexivity. Qed.
Lemma zbefore_range : forall t n i f, (i < n)%nat -> zbefore t n i f = zsum (sub_len t n i) (fun k => f (sub_lo t i + k)%nat).
Proof.
  intros t n i f Hi. unfold zbefore. destruct t; cbn [sub_lo sub_len precedes].
  - replace n with (i + (n - i))%nat at 1 by lia. rewrite zsum_app, (zsum_0 (n - i)).
    + rewrite Z.add_0_r. apply zsum_ext. intros k Hk. destruct (Nat.ltb_spec k i); [reflexivity|lia].
    + intros k Hk. destruct (Nat.ltb_spec (i + k) i); [lia|reflexivity].
  - replace n with ((i + 1) + (n - (i + 1)))%nat at 1 by lia. rewrite zsum_app, (zsum_0 (i + 1)).
    + rewrite Z.add_0_l. apply zsum_ext. intros k Hk. destruct (Nat.ltb_spec i (i + 1 + k)); [reflexivity|lia].
    + intros k Hk. destruct (Nat.ltb_spec i k); [lia|reflexivity].
Qed.
Definition trunc_solution (t : triangle) (d : diagonal) (n : nat) (a : nat -> nat -> Z) (b x : nat -> Z) : Prop :=
  forall i, (i < n)%nat ->
    let r := b i - zbefore t n i (fun j => a i j * x j) in
    x i = match d with Explicit => Z.quot r (a i i) | ImplicitUnit => r end.
Lemma quot_abs : forall x y, Z.abs (Z.quot x y) <= Z.abs x.
Proof.
  intros x y. destruct (Z.eq_dec y 0) as [->|N]; [destruct x; simpl; lia|]. rewrite <- Z.quot_abs by auto.
  assert (0 < Z.abs y) by lia. destruct (Z.eq_dec (Z.abs x) 0) as [E|E]; [rewrite E, Z.quot_0_l by lia; lia|].
  destruct (Z.eq_dec (Z.abs y) 1) as [->|]; [rewrite Z.quot_1_r; lia|]. apply Z.lt_le_incl, Z.quot_lt; lia.
Qed.
Lemma subst_trunc : forall t d n (a : nat -> nat -> Z) (b x : nat -> Z) (f : nat -> option Z),
  trunc_solution t d n a b x ->
  (d = Explicit -> forall i, (i < n)%nat -> a i i <> 0) ->
  (forall i, (i < n)%nat -> Z.abs (b i) + zbefore t n i (fun j => Z.abs (a i j * x j)) <= int_max w) ->
  (forall i, (i < n)%nat -> f i = @subst_value SO (@div SO) t d n (fun i j => Some (a i j)) (fun i => Some (b i)) f i) ->
  forall i, (i < n)%nat -> f i = Some (x i).
Proof.
  intros t d n a b x f Hx Hd Hr Hf.
  assert (step : forall i, (i < n)%nat -> (forall k, (sub_lo t i <= k < sub_lo t i + sub_len t n i)%nat -> f k = Some (x k)) -> f i = Some (x i)).
  { intros i Hi IH. rewrite Hf by auto. unfold subst_value. specialize (Hr i Hi). rewrite zbefore_range in Hr by auto.
    rewrite (diffs_sint _ _ (b i) (a i) x f IH Hr). specialize (Hx i Hi). cbv zeta in Hx. rewrite zbefore_range in Hx by auto.
    pose proof (zsum_abs (sub_len t n i) (fun k => a i (sub_lo t i + k)%nat * x (sub_lo t i + k)%nat)) as Q. cbv beta in Q.
    destruct d; [|f_equal; lia]. cbn [div sint_ops lift2]. unfold sdiv. destruct (Z.eqb_spec (a i i) 0); [exfalso; eapply Hd; eauto|].
    rewrite <- Hx. apply checked_ok. rewrite Hx. eapply Z.le_trans; [apply quot_abs|]. lia. }
  destruct t; cbn [sub_lo sub_len] in step.
  - intros i. induction i as [i IH] using lt_wf_ind. intros Hi. apply step; auto. intros k Hk. apply IH; lia.
  - assert (G : forall c i, (n - i <= c)%nat -> (i < n)%nat -> f i = Some (x i)).
    { induction c; intros i Hc Hi; [lia|]. apply step; auto. intros k Hk. apply IHc; lia. }
    intros i Hi. apply (G (n - i)%nat); auto.
Qed.
Lemma trsv_trunc : forall ty (m : mem SO) A t d B X (a : nat -> nat -> Z) (b x : nat -> Z),
  fits ty (ext0 A) -> (ext0 A = 0%nat -> t = Upper -> ty <> U32) ->
  ext0 A = ext1 A -> vext B = ext0 A -> vext X = ext0 A ->
  mat_holds_on m A (stored t d) (fun i j => Some (a i j)) -> vec_holds m B (fun i => Some (b i)) -> vwritable X -> allocated m (vcells X) ->
  disjoint (mcells_on A (stored t d)) (vcells X) -> disjoint_or_aligned_v B X ->
  (d = Explicit -> forall i, (i < ext0 A)%nat -> a i i <> 0) ->
  (forall i, (i < ext0 A)%nat ->
    let r := b i - zbefore t (ext0 A) i (fun j => a i j * x j) in
    x i = match d with Explicit => Z.quot r (a i i) | ImplicitUnit => r end) ->
  (forall i, (i < ext0 A)%nat -> Z.abs (b i) + zbefore t (ext0 A) i (fun j => Z.abs (a i j * x j)) <= int_max w) ->
  succeeds (triangular_matrix_vector_solve ty A t d B X) m (fun _ m' =>
    vec_holds m' X (fun i => Some (x i)) /\ changes_only m m' (vcells X)).
Proof.
  intros ty m A t d B X a b x H1 H2 H3 H4 H5 H6 H7 H8 H9 H10 H11 Hd Hx Hr.
  eapply wp_conseq; [apply (@trsv_subst SO) with (a := fun i j => Some (a i j)) (b := fun i => Some (b i)); eauto|].
  intros [] m' [(f & K1 & K2) K3]. split; auto. intros i Hi.
  rewrite <- (subst_trunc t d (ext0 A) a b x f Hx Hd Hr K2 i) by lia. apply K1; auto.
Qed.
Lemma exact_is_trunc : forall t d n (a : nat -> nat -> Z) (b x : nat -> Z),
  (d = Explicit -> forall i, (i < n)%nat -> a i i <> 0) ->
  (forall i, (i < n)%nat -> zsum n (fun j => ztri t d a i j * x j) = b i) -> trunc_solution t d n a b x.
Proof.
  intros t d n a b x Hd H i Hi. cbv zeta.
  assert (E : b i = zbefore t n i (fun j => a i j * x j) + match d with Explicit => a i i | ImplicitUnit => 1 end * x i).
  { rewrite <- (H i Hi). unfold zbefore.
    replace n with (i + (1 + (n - (i + 1))))%nat by lia. rewrite !zsum_app.
    change (zsum 1 (fun j => ztri t d a i (i + j) * x (i + j)%nat)) with (0 + ztri t d a i (i + 0) * x (i + 0)%nat).
    change (zsum 1 (fun j => if precedes t i (i + j) then a i (i + j)%nat * x (i + j)%nat else 0)) with
      (0 + if precedes t i (i + 0) then a i (i + 0)%nat * x (i + 0)%nat else 0).
    rewrite Nat.add_0_r.
    replace (precedes t i i) with false by (destruct t; simpl; symmetry; apply Nat.ltb_irrefl).
    replace (ztri t d a i i) with (match d with Explicit => a i i | ImplicitUnit => 1 end) by (unfold ztri; rewrite Nat.eqb_refl; reflexivity).
    rewrite (zsum_ext i (fun j => ztri t d a i j * x j) (fun j => if precedes t i j then a i j * x j else 0)).
    2:{ intros k Hk. unfold ztri. destruct (Nat.eqb_spec i k); [lia|]. destruct (precedes t i k); lia. }
    rewrite (zsum_ext (n - (i + 1)) (fun j => ztri t d a i (i + (1 + j)) * x (i + (1 + j))%nat)
      (fun j => if precedes t i (i + (1 + j)) then a i (i + (1 + j))%nat * x (i + (1 + j))%nat else 0)).
    2:{ intros k Hk. unfold ztri. destruct (Nat.eqb_spec i (i + (1 + k))); [lia|]. destruct (precedes t i (i + (1 + k))); lia. }
    lia. }
  rewrite E. replace (_ + _ - _) with (match d with Explicit => a i i | ImplicitUnit => 1 end * x i) by lia.
  destruct d; [|lia]. rewrite Z.mul_comm, Z.quot_mul; auto.
Qed.
Lemma trsv_exact : forall ty (m : mem SO) A t d B X (a : nat -> nat -> Z) (b x : nat -> Z),
  fits ty (ext0 A) -> (ext0 A = 0%nat -> t = Upper -> ty <> U32) ->
  ext0 A = ext1 A -> vext B = ext0 A -> vext X = ext0 A ->
  mat_holds_on m A (stored t d) (fun i j => Some (a i j)) -> vec_holds m B (fun i => Some (b i)) -> vwritable X -> allocated m (vcells X) ->
  disjoint (mcells_on A (stored t d)) (vcells X) -> disjoint_or_aligned_v B X ->
  (d = Explicit -> forall i, (i < ext0 A)%nat -> a i i <> 0) ->
  (forall i, (i < ext0 A)%nat -> zsum (ext0 A) (fun j => ztri t d a i j * x j) = b i) ->
  (forall i, (i < ext0 A)%nat -> Z.abs (b i) + zbefore t (ext0 A) i (fun j => Z.abs (a i j * x j)) <= int_max w) ->
  succeeds (triangular_matrix_vector_solve ty A t d B X) m (fun _ m' =>
    vec_holds m' X (fun i => Some (x i)) /\ changes_only m m' (vcells X)).
Proof. intros. eapply trsv_trunc; eauto. apply (exact_is_trunc t d (ext0 A) a b x); auto. Qed.
Lemma trsm_left_exact : forall ty (m : mem SO) A t d B X (a b x : nat -> nat -> Z),
  fits ty (ext0 A) -> (ext0 A = 0%nat -> t = Upper -> ty <> U32) ->
  ext0 A = ext1 A -> ext0 B = ext0 A -> ext0 X = ext0 A -> ext1 X = ext1 B ->
  mat_holds_on m A (stored t d) (fun i j => Some (a i j)) -> mat_holds m B (fun i j => Some (b i j)) -> mwritable X -> allocated m (mcells X) ->
  disjoint (mcells_on A (stored t d)) (mcells X) -> disjoint_or_aligned_m B X ->
  (d = Explicit -> forall i, (i < ext0 A)%nat -> a i i <> 0) ->
  (forall i j, (i < ext0 A)%nat -> (j < ext1 B)%nat -> zsum (ext0 A) (fun k => ztri t d a i k * x k j) = b i j) ->
  (forall i j, (i < ext0 A)%nat -> (j < ext1 B)%nat -> Z.abs (b i j) + zbefore t (ext0 A) i (fun k => Z.abs (a i k * x k j)) <= int_max w) ->
  succeeds (triangular_matrix_matrix_left_solve ty A t d B X) m (fun _ m' =>
    mat_holds m' X (fun i j => Some (x i j)) /\ changes_only m m' (mcells X)).
Proof.
  intros ty m A t d B X a b x H1 H2 H3 H4 H5 H5' H6 H7 H8 H9 H10 H11 Hd Hx Hr.
  eapply wp_conseq; [apply (@trsm_left_subst SO) with (a := fun i j => Some (a i j)) (b := fun i j => Some (b i j)); eauto|].
  intros [] m' [(f & K1 & K2) K3]. split; auto. intros i j Hi Hj HP.
  assert (E : f i j = Some (x i j)).
  { apply (subst_trunc t d (ext0 A) a (fun i => b i j) (fun i => x i j) (fun i => f i j)); auto; try lia.
    - apply exact_is_trunc; auto. intros k Hk. apply Hx; lia.
    - intros k Hk. apply Hr; lia.
    - intros k Hk. apply K2; lia. }
  rewrite <- E. apply K1; auto.
Qed.
Lemma trsv_div0 : forall ty (m : mem SO) A t B X (a : nat -> nat -> Z) (b : nat -> Z) i,
  fits ty (ext0 A) -> ext0 A = ext1 A -> vext B = ext0 A -> vext X = ext0 A ->
  mat_holds_on m A (stored t Explicit) (fun i j => Some (a i j)) -> vec_holds m B (fun i => Some (b i)) -> vwritable X -> allocated m (vcells X) ->
  disjoint (mcells_on A (stored t Explicit)) (vcells X) -> disjoint_or_aligned_v B X ->
  (i < ext0 A)%nat -> a i i = 0 ->
  succeeds (triangular_matrix_vector_solve ty A t Explicit B X) m (fun _ m' =>
    exists f : nat -> option Z, vec_holds (O := SO) m' X f /\ f i = None).
Proof.
  intros ty m A t B X a b i H1 H3 H4 H5 H6 H7 H8 H9 H10 H11 Hi Ha.
  eapply wp_conseq; [apply (@trsv_subst SO) with (a := fun i j => Some (a i j)) (b := fun i => Some (b i)); eauto; lia|].
  intros [] m' [(f & K1 & K2) K3]. exists f. split; auto. rewrite (K2 i Hi). unfold subst_value. rewrite Ha.
  match goal with |- @div _ ?s _ = _ => generalize s end. intros [z|]; reflexivity.
Qed.
End Signed.

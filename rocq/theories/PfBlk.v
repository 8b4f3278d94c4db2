(** Lemmas for C98: loops cut in two. *)
From Coq Require Import List Arith NArith ZArith Bool Lia.
From Verif Require Import Mem Scalar View Spec Idx Blas1 Blas2 Blas3 Norm SpecBlk PfTrsv PfBlas3 PfTrsm SpecAcc PfAcc2 PfCost.
Import ListNotations.
Set Implicit Arguments.

Section SE.
Context {T : Type}.
Lemma se_refl : forall A (p : prog T A), same_effect p p.
Proof. intros A p m; reflexivity. Qed.
Lemma se_eq : forall A (p q : prog T A), p = q -> same_effect p q.
Proof. intros A p q ->. apply se_refl. Qed.
Lemma se_trans : forall A (p q r : prog T A), same_effect p q -> same_effect q r -> same_effect p r.
Proof. intros A p q r H1 H2 m. rewrite H1. apply H2. Qed.
Lemma se_run_bind : forall A B (p : prog T A) (f : A -> prog T B) m,
  run (bind p f) m = match run p m with Ok x m' => run (f x) m' | Err e m' => Err e m' end.
Proof.
  intros A B p f. induction p as [x|a k IH|a v k IH|e]; intros m; simpl; auto.
  - destruct (m a); auto.
  - destruct (m a); auto.
Qed.
Lemma se_bind : forall A B (p q : prog T A) (f g : A -> prog T B), same_effect p q -> (forall x, same_effect (f x) (g x)) ->
  same_effect (bind p f) (bind q g).
Proof. intros A B p q f g H1 H2 m. rewrite !se_run_bind, H1. destruct (run q m); auto. apply H2. Qed.
Lemma se_assoc : forall A B C (p : prog T A) (f : A -> prog T B) (g : B -> prog T C),
  same_effect (bind (bind p f) g) (bind p (fun x => bind (f x) g)).
Proof. intros A B C p f g m. rewrite !se_run_bind. destruct (run p m); auto. rewrite se_run_bind. reflexivity. Qed.
Lemma se_for_ : forall n lo (b b' : nat -> prog T unit), (forall i, lo <= i < lo + n -> same_effect (b i) (b' i)) -> same_effect (for_ lo n b) (for_ lo n b').
Proof. induction n; intros lo b b' H; simpl; [apply se_refl|]. apply se_bind; [apply H; lia|]. intros _. apply IHn. intros; apply H; lia. Qed.
Lemma se_for : forall lo hi (b b' : nat -> prog T unit), (forall i, lo <= i -> i < hi -> same_effect (b i) (b' i)) -> same_effect (for_range lo hi b) (for_range lo hi b').
Proof. intros. apply se_for_. intros; apply H; lia. Qed.
Lemma se_down : forall n (b b' : nat -> prog T unit), (forall i, i < n -> same_effect (b i) (b' i)) -> same_effect (for_down n b) (for_down n b').
Proof. induction n; intros b b' H; simpl; [apply se_refl|]. apply se_bind; [apply H; lia|]. intros _. apply IHn. intros; apply H; lia. Qed.
Lemma se_fold_ : forall A n lo (b b' : nat -> A -> prog T A), (forall i x, lo <= i < lo + n -> same_effect (b i x) (b' i x)) ->
  forall x, same_effect (fold_ lo n b x) (fold_ lo n b' x).
Proof. induction n; intros lo b b' H x; simpl; [apply se_refl|]. apply se_bind; [apply H; lia|]. intros y. apply IHn. intros; apply H; lia. Qed.
Lemma se_fold : forall A lo hi (b b' : nat -> A -> prog T A) x, (forall i x, lo <= i -> i < hi -> same_effect (b i x) (b' i x)) ->
  same_effect (fold_range lo hi b x) (fold_range lo hi b' x).
Proof. intros. apply se_fold_. intros; apply H; lia. Qed.
Lemma for_shift : forall n lo (b : nat -> prog T unit), same_effect (for_ lo n b) (for_ 0 n (fun i => b (lo + i))).
Proof.
  intros n lo b. assert (H : forall n k, same_effect (for_ (lo + k) n b) (for_ k n (fun i => b (lo + i)))).
  { clear n. induction n; intros k; simpl; [apply se_refl|]. apply se_bind; [apply se_refl|]. intros _. rewrite <- Nat.add_succ_r. apply IHn. }
  specialize (H n 0). rewrite Nat.add_0_r in H. exact H.
Qed.
Lemma fold_shift : forall A n lo (b : nat -> A -> prog T A) x, same_effect (fold_ lo n b x) (fold_ 0 n (fun i => b (lo + i)) x).
Proof.
  intros A n lo b x. assert (H : forall n k x, same_effect (fold_ (lo + k) n b x) (fold_ k n (fun i => b (lo + i)) x)).
  { clear n x. induction n; intros k x; simpl; [apply se_refl|]. apply se_bind; [apply se_refl|]. intros y. rewrite <- Nat.add_succ_r. apply IHn. }
  specialize (H n 0 x). rewrite Nat.add_0_r in H. exact H.
Qed.
Lemma for_app : forall k n lo (b : nat -> prog T unit), same_effect (for_ lo (k + n) b) (bind (for_ lo k b) (fun _ => for_ (lo + k) n b)).
Proof.
  induction k; intros n lo b; simpl; [rewrite Nat.add_0_r; apply se_refl|].
  eapply se_trans; [|intros m; symmetry; apply se_assoc]. apply se_bind; [apply se_refl|]. intros _. rewrite <- Nat.add_succ_comm. apply IHk.
Qed.
Lemma fold_app : forall A k n lo (b : nat -> A -> prog T A) x, same_effect (fold_ lo (k + n) b x) (bind (fold_ lo k b x) (fun y => fold_ (lo + k) n b y)).
Proof.
  intros A. induction k; intros n lo b x; simpl; [rewrite Nat.add_0_r; apply se_refl|].
  eapply se_trans; [|intros m; symmetry; apply se_assoc]. apply se_bind; [apply se_refl|]. intros y. rewrite <- Nat.add_succ_comm. apply IHk.
Qed.
Lemma se_split : forall k n (b : nat -> prog T unit), k <= n ->
  same_effect (for_range 0 n b) (bind (for_range 0 k b) (fun _ => for_range 0 (n - k) (fun i => b (k + i)))).
Proof.
  intros k n b H. unfold for_range. rewrite !Nat.sub_0_r. replace n with (k + (n - k)) at 1 by lia.
  eapply se_trans; [apply for_app|]. apply se_bind; [apply se_refl|]. intros _. apply for_shift.
Qed.
Lemma se_fold_split : forall A k n (b : nat -> A -> prog T A) x, k <= n ->
  same_effect (fold_range 0 n b x) (bind (fold_range 0 k b x) (fun y => fold_range 0 (n - k) (fun i => b (k + i)) y)).
Proof.
  intros A k n b x H. unfold fold_range. rewrite !Nat.sub_0_r. replace n with (k + (n - k)) at 1 by lia.
  eapply se_trans; [apply fold_app|]. apply se_bind; [apply se_refl|]. intros y. apply fold_shift.
Qed.
End SE.

Section Access.
Context {O : ops}.
Lemma vget_sub : forall (x : vec O) lo n i, i < n -> lo + n <= vext x -> vget (sub_v x lo n) i = vget x (lo + i).
Proof. intros x lo n i H1 H2. unfold vget. simpl. destruct (Nat.ltb_spec i n), (Nat.ltb_spec (lo + i) (vext x)); try lia; reflexivity. Qed.
Lemma vset_sub : forall (x : vec O) lo n i v, i < n -> lo + n <= vext x -> vset (sub_v x lo n) i v = vset x (lo + i) v.
Proof. intros x lo n i v H1 H2. unfold vset. simpl. destruct (vacc x); auto. destruct (Nat.ltb_spec i n), (Nat.ltb_spec (lo + i) (vext x)); try lia; reflexivity. Qed.
Lemma mget_sub : forall (A : mat O) r n c k i j, i < n -> j < k -> r + n <= ext0 A -> c + k <= ext1 A -> mget (sub_m A r n c k) i j = mget A (r + i) (c + j).
Proof.
  intros A r n c k i j H1 H2 H3 H4. unfold mget. simpl.
  destruct (Nat.ltb_spec i n), (Nat.ltb_spec (r + i) (ext0 A)), (Nat.ltb_spec j k), (Nat.ltb_spec (c + j) (ext1 A)); try lia; reflexivity.
Qed.
Lemma mset_sub : forall (A : mat O) r n c k i j v, i < n -> j < k -> r + n <= ext0 A -> c + k <= ext1 A -> mset (sub_m A r n c k) i j v = mset A (r + i) (c + j) v.
Proof.
  intros A r n c k i j v H1 H2 H3 H4. unfold mset. simpl. destruct (macc A); auto.
  destruct (Nat.ltb_spec i n), (Nat.ltb_spec (r + i) (ext0 A)), (Nat.ltb_spec j k), (Nat.ltb_spec (c + j) (ext1 A)); try lia; reflexivity.
Qed.
End Access.
Lemma se_from : forall (O : ops) A z n (f g : nat -> prog O A), z = Z.of_nat n -> same_effect (f n) (g n) -> same_effect (from_index z f) (from_index z g).
Proof. intros O A z n f g -> H. rewrite !from_index_nat. exact H. Qed.
Ltac hit := symmetry; first [apply vget_sub; lia | apply vset_sub; lia | apply mget_sub; lia | apply mset_sub; lia].
Ltac blk := lazymatch goal with
  | |- same_effect ?p ?p => apply se_refl
  | |- same_effect (bind _ _) (bind _ _) => apply se_bind; [blk | intros ?; blk]
  | |- same_effect (for_range 0 (Z.to_nat (k_upper ?ty ?d ?i + 1)) _) _ =>
      match goal with F : fits ty ?n |- _ => rewrite !(@upper_ok ty d i n F) by lia end; cbn [is_explicit]; blk
  | |- same_effect (for_range _ _ _) (for_range _ _ _) => apply se_for; intros; blk
  | |- same_effect (for_down _ _) (for_down _ _) => apply se_down; intros; blk
  | |- same_effect (fold_range _ _ _ _) (fold_range _ _ _ _) => apply se_fold; intros; blk
  | |- same_effect (from_index _ _) (from_index _ _) => eapply se_from; [first [eapply start_ok; [eassumption|lia] | eapply k_lower_ok; [eassumption|lia]] | cbn [is_explicit]; blk]
  | |- same_effect (when ?b _) (when ?b _) => destruct b; [simpl; blk | apply se_refl]
  | |- same_effect (if ?b then _ else _) (if ?b then _ else _) => destruct b; blk
  | |- same_effect _ _ => apply se_eq; hit
  end.
Ltac cut1 k := eapply se_trans; [apply (@se_split _ k); lia|]; apply se_bind; [|intros _]; cbn [vext ext0 ext1 sub_v sub_m].
Section Exact.
Context {O : ops}.
Lemma blk_copy_1 : forall (x y : vec O) k, k <= vext y -> vext x = vext y ->
  same_effect (copy_1 x y)
    (bind (copy_1 (sub_v x 0 k) (sub_v y 0 k)) (fun _ => copy_1 (sub_v x k (vext x - k)) (sub_v y k (vext y - k)))).
Proof. intros. unfold copy_1, vacc_add, macc_add. repeat match goal with t : triangle |- _ => destruct t | d : diagonal |- _ => destruct d end; cut1 k; blk. Qed.
Lemma blk_swap_1 : forall (x y : vec O) k, k <= vext y -> vext x = vext y ->
  same_effect (swap_1 x y)
    (bind (swap_1 (sub_v x 0 k) (sub_v y 0 k)) (fun _ => swap_1 (sub_v x k (vext x - k)) (sub_v y k (vext y - k)))).
Proof. intros. unfold swap_1, vacc_add, macc_add. repeat match goal with t : triangle |- _ => destruct t | d : diagonal |- _ => destruct d end; cut1 k; blk. Qed.
Lemma blk_scale_1 : forall alpha (x : vec O) k, k <= vext x -> 
  same_effect (scale_1 alpha x)
    (bind (scale_1 alpha (sub_v x 0 k)) (fun _ => scale_1 alpha (sub_v x k (vext x - k)))).
Proof. intros. unfold scale_1, vacc_add, macc_add. repeat match goal with t : triangle |- _ => destruct t | d : diagonal |- _ => destruct d end; cut1 k; blk. Qed.
Lemma blk_add_1 : forall (x y z : vec O) k, k <= vext z -> vext x = vext z -> vext y = vext z ->
  same_effect (add_1 x y z)
    (bind (add_1 (sub_v x 0 k) (sub_v y 0 k) (sub_v z 0 k)) (fun _ => add_1 (sub_v x k (vext x - k)) (sub_v y k (vext y - k)) (sub_v z k (vext z - k)))).
Proof. intros. unfold add_1, vacc_add, macc_add. repeat match goal with t : triangle |- _ => destruct t | d : diagonal |- _ => destruct d end; cut1 k; blk. Qed.
Lemma blk_apply_givens_rotation : forall (x y : vec O) c s k, k <= vext x -> vext x = vext y ->
  same_effect (apply_givens_rotation x y c s)
    (bind (apply_givens_rotation (sub_v x 0 k) (sub_v y 0 k) c s) (fun _ => apply_givens_rotation (sub_v x k (vext x - k)) (sub_v y k (vext y - k)) c s)).
Proof. intros. unfold apply_givens_rotation, vacc_add, macc_add. repeat match goal with t : triangle |- _ => destruct t | d : diagonal |- _ => destruct d end; cut1 k; blk. Qed.
Lemma blk_apply_givens_rotation_c : forall (x y : vec O) c s k, k <= vext x -> vext x = vext y ->
  same_effect (apply_givens_rotation_c x y c s)
    (bind (apply_givens_rotation_c (sub_v x 0 k) (sub_v y 0 k) c s) (fun _ => apply_givens_rotation_c (sub_v x k (vext x - k)) (sub_v y k (vext y - k)) c s)).
Proof. intros. unfold apply_givens_rotation_c, vacc_add, macc_add. repeat match goal with t : triangle |- _ => destruct t | d : diagonal |- _ => destruct d end; cut1 k; blk. Qed.
Lemma blk_dot : forall (x y : vec O) init k, k <= vext x -> vext x = vext y ->
  same_effect (dot x y init)
    (bind (dot (sub_v x 0 k) (sub_v y 0 k) init) (fun s => dot (sub_v x k (vext x - k)) (sub_v y k (vext y - k)) s)).
Proof. intros. unfold dot. eapply se_trans; [apply (@se_fold_split _ _ k); lia|]. apply se_bind; [|intros ?]; cbn [vext ext0 ext1 sub_v sub_m]; blk. Qed.
Lemma blk_copy_2 : forall (x y : mat O) k, k <= ext1 y -> ext0 x = ext0 y -> ext1 x = ext1 y ->
  same_effect (copy_2 x y)
    (bind (copy_2 (sub_m x 0 (ext0 x) 0 k) (sub_m y 0 (ext0 y) 0 k)) (fun _ => copy_2 (sub_m x 0 (ext0 x) k (ext1 x - k)) (sub_m y 0 (ext0 y) k (ext1 y - k)))).
Proof. intros. unfold copy_2, vacc_add, macc_add. repeat match goal with t : triangle |- _ => destruct t | d : diagonal |- _ => destruct d end; cut1 k; blk. Qed.
Lemma blk_swap_2 : forall (x y : mat O) k, k <= ext1 y -> ext0 x = ext0 y -> ext1 x = ext1 y ->
  same_effect (swap_2 x y)
    (bind (swap_2 (sub_m x 0 (ext0 x) 0 k) (sub_m y 0 (ext0 y) 0 k)) (fun _ => swap_2 (sub_m x 0 (ext0 x) k (ext1 x - k)) (sub_m y 0 (ext0 y) k (ext1 y - k)))).
Proof. intros. unfold swap_2, vacc_add, macc_add. repeat match goal with t : triangle |- _ => destruct t | d : diagonal |- _ => destruct d end; cut1 k; blk. Qed.
Lemma blk_scale_2 : forall alpha (x : mat O) k, k <= ext1 x -> 
  same_effect (scale_2 alpha x)
    (bind (scale_2 alpha (sub_m x 0 (ext0 x) 0 k)) (fun _ => scale_2 alpha (sub_m x 0 (ext0 x) k (ext1 x - k)))).
Proof. intros. unfold scale_2, vacc_add, macc_add. repeat match goal with t : triangle |- _ => destruct t | d : diagonal |- _ => destruct d end; cut1 k; blk. Qed.
Lemma blk_add_2 : forall (x y z : mat O) k, k <= ext1 x -> ext0 y = ext0 x -> ext1 y = ext1 x -> ext0 z = ext0 x -> ext1 z = ext1 x ->
  same_effect (add_2 x y z)
    (bind (add_2 (sub_m x 0 (ext0 x) 0 k) (sub_m y 0 (ext0 y) 0 k) (sub_m z 0 (ext0 z) 0 k)) (fun _ => add_2 (sub_m x 0 (ext0 x) k (ext1 x - k)) (sub_m y 0 (ext0 y) k (ext1 y - k)) (sub_m z 0 (ext0 z) k (ext1 z - k)))).
Proof. intros. unfold add_2, vacc_add, macc_add. repeat match goal with t : triangle |- _ => destruct t | d : diagonal |- _ => destruct d end; cut1 k; blk. Qed.
Lemma blk_matrix_vector_product : forall (A : mat O) x y k, k <= ext0 A -> vext y = ext0 A ->
  same_effect (matrix_vector_product A x y)
    (bind (matrix_vector_product (sub_m A 0 k 0 (ext1 A)) x (sub_v y 0 k)) (fun _ => matrix_vector_product (sub_m A k (ext0 A - k) 0 (ext1 A)) x (sub_v y k (vext y - k)))).
Proof. intros. unfold matrix_vector_product, vacc_add, macc_add. repeat match goal with t : triangle |- _ => destruct t | d : diagonal |- _ => destruct d end; cut1 k; blk. Qed.
Lemma blk_matrix_vector_product_upd : forall (A : mat O) x y z k, k <= ext0 A -> vext y = ext0 A -> vext z = ext0 A ->
  same_effect (matrix_vector_product_upd A x y z)
    (bind (matrix_vector_product_upd (sub_m A 0 k 0 (ext1 A)) x (sub_v y 0 k) (sub_v z 0 k)) (fun _ => matrix_vector_product_upd (sub_m A k (ext0 A - k) 0 (ext1 A)) x (sub_v y k (vext y - k)) (sub_v z k (vext z - k)))).
Proof. intros. unfold matrix_vector_product_upd, vacc_add, macc_add. repeat match goal with t : triangle |- _ => destruct t | d : diagonal |- _ => destruct d end; cut1 k; blk. Qed.
Lemma blk_matrix_rank_1_update : forall (x y : vec O) A k, k <= ext0 A -> vext x = ext0 A ->
  same_effect (matrix_rank_1_update x y A)
    (bind (matrix_rank_1_update (sub_v x 0 k) y (sub_m A 0 k 0 (ext1 A))) (fun _ => matrix_rank_1_update (sub_v x k (vext x - k)) y (sub_m A k (ext0 A - k) 0 (ext1 A)))).
Proof. intros. unfold matrix_rank_1_update, vacc_add, macc_add. repeat match goal with t : triangle |- _ => destruct t | d : diagonal |- _ => destruct d end; cut1 k; blk. Qed.
Lemma blk_matrix_product : forall (A B C : mat O) k, k <= ext0 C -> ext0 A = ext0 C ->
  same_effect (matrix_product A B C)
    (bind (matrix_product (sub_m A 0 k 0 (ext1 A)) B (sub_m C 0 k 0 (ext1 C))) (fun _ => matrix_product (sub_m A k (ext0 A - k) 0 (ext1 A)) B (sub_m C k (ext0 C - k) 0 (ext1 C)))).
Proof. intros. unfold matrix_product, vacc_add, macc_add. repeat match goal with t : triangle |- _ => destruct t | d : diagonal |- _ => destruct d end; cut1 k; blk. Qed.
Lemma blk_matrix_product_upd : forall (A B E C : mat O) k, k <= ext0 C -> ext0 A = ext0 C -> ext0 E = ext0 C -> ext1 E = ext1 C ->
  same_effect (matrix_product_upd A B E C)
    (bind (matrix_product_upd (sub_m A 0 k 0 (ext1 A)) B (sub_m E 0 k 0 (ext1 E)) (sub_m C 0 k 0 (ext1 C))) (fun _ => matrix_product_upd (sub_m A k (ext0 A - k) 0 (ext1 A)) B (sub_m E k (ext0 E - k) 0 (ext1 E)) (sub_m C k (ext0 C - k) 0 (ext1 C)))).
Proof. intros. unfold matrix_product_upd, vacc_add, macc_add. repeat match goal with t : triangle |- _ => destruct t | d : diagonal |- _ => destruct d end; cut1 k; blk. Qed.
Lemma blk_triangular_matrix_product_left : forall ty (A B C : mat O) t d k, k <= ext1 C -> ext0 B = ext0 C -> ext1 B = ext1 C -> fits ty (ext0 C) ->
  same_effect (triangular_matrix_product_left ty A t d B C)
    (bind (triangular_matrix_product_left ty A t d (sub_m B 0 (ext0 B) 0 k) (sub_m C 0 (ext0 C) 0 k)) (fun _ => triangular_matrix_product_left ty A t d (sub_m B 0 (ext0 B) k (ext1 B - k)) (sub_m C 0 (ext0 C) k (ext1 C - k)))).
Proof. intros. unfold triangular_matrix_product_left, macc_add. destruct t, d; cbn [is_explicit negb]; cut1 k; blk. Qed.
Lemma blk_triangular_matrix_left_product : forall (A C : mat O) t d k, k <= ext1 C -> 
  same_effect (triangular_matrix_left_product A t d C)
    (bind (triangular_matrix_left_product A t d (sub_m C 0 (ext0 C) 0 k)) (fun _ => triangular_matrix_left_product A t d (sub_m C 0 (ext0 C) k (ext1 C - k)))).
Proof. intros. unfold triangular_matrix_left_product, vacc_add, macc_add. repeat match goal with t : triangle |- _ => destruct t | d : diagonal |- _ => destruct d end; cut1 k; blk. Qed.
Lemma blk_symmetric_matrix_product_left : forall (A B C : mat O) t k, k <= ext1 C -> ext1 A = ext0 B -> ext1 B = ext1 C ->
  same_effect (symmetric_matrix_product_left A t B C)
    (bind (symmetric_matrix_product_left A t (sub_m B 0 (ext0 B) 0 k) (sub_m C 0 (ext0 C) 0 k)) (fun _ => symmetric_matrix_product_left A t (sub_m B 0 (ext0 B) k (ext1 B - k)) (sub_m C 0 (ext0 C) k (ext1 C - k)))).
Proof. intros. unfold symmetric_matrix_product_left, vacc_add, macc_add. repeat match goal with t : triangle |- _ => destruct t | d : diagonal |- _ => destruct d end; cut1 k; blk. Qed.
Lemma blk_hermitian_matrix_product_left : forall (A B C : mat O) t k, k <= ext1 C -> ext0 A = ext0 C -> ext1 A = ext0 C -> ext0 B = ext0 C -> ext1 B = ext1 C ->
  same_effect (hermitian_matrix_product_left A t B C)
    (bind (hermitian_matrix_product_left A t (sub_m B 0 (ext0 B) 0 k) (sub_m C 0 (ext0 C) 0 k)) (fun _ => hermitian_matrix_product_left A t (sub_m B 0 (ext0 B) k (ext1 B - k)) (sub_m C 0 (ext0 C) k (ext1 C - k)))).
Proof. intros. unfold hermitian_matrix_product_left, vacc_add, macc_add. repeat match goal with t : triangle |- _ => destruct t | d : diagonal |- _ => destruct d end; cut1 k; blk. Qed.
Lemma blk_triangular_matrix_matrix_left_solve : forall ty (A B X : mat O) t d k, k <= ext1 B -> ext0 A = ext0 X -> ext0 B = ext0 X -> ext1 B = ext1 X -> fits ty (ext0 A) -> (ext0 A = 0 -> ty <> U32) ->
  same_effect (triangular_matrix_matrix_left_solve ty A t d B X)
    (bind (triangular_matrix_matrix_left_solve ty A t d (sub_m B 0 (ext0 B) 0 k) (sub_m X 0 (ext0 X) 0 k)) (fun _ => triangular_matrix_matrix_left_solve ty A t d (sub_m B 0 (ext0 B) k (ext1 B - k)) (sub_m X 0 (ext0 X) k (ext1 X - k)))).
Proof. intros. unfold triangular_matrix_matrix_left_solve, trsm_lower_left, trsm_upper_left. destruct t, d; cbn [is_explicit negb]; rewrite ?down_ok by auto; cut1 k; blk. Qed.
Lemma blk_triangular_matrix_matrix_right_solve : forall ty (A B X : mat O) t d k, k <= ext0 B -> ext0 A = ext1 A -> ext1 A = ext1 X -> ext1 B = ext1 X -> ext0 B = ext0 X -> (t = Lower -> fits (make_signed ty) (ext1 A)) ->
  same_effect (triangular_matrix_matrix_right_solve ty A t d B X)
    (bind (triangular_matrix_matrix_right_solve ty A t d (sub_m B 0 k 0 (ext1 B)) (sub_m X 0 k 0 (ext1 X))) (fun _ => triangular_matrix_matrix_right_solve ty A t d (sub_m B k (ext0 B - k) 0 (ext1 B)) (sub_m X k (ext0 X - k) 0 (ext1 X)))).
Proof. intros. unfold triangular_matrix_matrix_right_solve, trsm_lower_right, trsm_upper_right. destruct t, d; repeat match goal with H : ?x = ?x -> _ |- _ => specialize (H eq_refl) end; try match goal with F : fits (make_signed _) _ |- _ => pose proof (@fits_signed _ _ F) end; cbn [is_explicit negb]; rewrite ?down_signed_ok by auto; cut1 k; blk. Qed.
End Exact.

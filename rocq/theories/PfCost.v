(** Lemmas for C97: counting loads and stores. *)
From Coq Require Import List Arith NArith ZArith Bool Lia.
From Verif Require Import Mem Scalar View Spec Idx Blas1 Blas2 Blas3 Norm SpecRel PfRel PfRel2 PfTrsv PfBlas3 PfTrsm Acc SpecAcc PfAcc PfAcc2.
Import ListNotations.
Set Implicit Arguments.

Lemma loads_app : forall l1 l2, loads (l1 ++ l2) = loads l1 + loads l2.
Proof. induction l1 as [|[a|a] l1 IH]; intros; simpl; auto. Qed.
Lemma stores_app : forall l1 l2, stores (l1 ++ l2) = stores l1 + stores l2.
Proof. induction l1 as [|[a|a] l1 IH]; intros; simpl; auto. Qed.

(** f lo + ... + f (lo + n - 1) *)
Fixpoint total (lo n : nat) (f : nat -> nat) : nat := match n with 0 => 0 | S k => f lo + total (S lo) k f end.
Lemma total_ext : forall n lo f g, (forall i, lo <= i < lo + n -> f i = g i) -> total lo n f = total lo n g.
Proof. induction n; intros lo f g H; simpl; auto. rewrite (H lo) by lia. rewrite (IHn (S lo) f g); auto. intros; apply H; lia. Qed.
Lemma total_add : forall n lo f g, total lo n (fun i => f i + g i) = total lo n f + total lo n g.
Proof. induction n; intros; simpl; auto. rewrite IHn. lia. Qed.
Lemma total_mul : forall n lo f c, total lo n (fun i => f i * c) = total lo n f * c.
Proof. induction n; intros; simpl; auto. rewrite IHn. ring. Qed.
Lemma total_mul_l : forall n lo f c, total lo n (fun i => c * f i) = c * total lo n f.
Proof. induction n; intros; simpl; auto. rewrite IHn. ring. Qed.
Lemma total_const : forall n lo c, total lo n (fun _ => c) = n * c.
Proof. induction n; intros; simpl; auto. Qed.
Lemma total_last : forall n lo f, total lo (S n) f = total lo n f + f (lo + n).
Proof. induction n; intros; [simpl; rewrite !Nat.add_0_r; reflexivity|]. change (total lo (S (S n)) f) with (f lo + total (S lo) (S n) f). rewrite IHn. change (total lo (S n) f) with (f lo + total (S lo) n f). replace (lo + S n) with (S lo + n) by lia. lia. Qed.
Lemma pairs_S : forall n, pairs (S n) = pairs n + n.
Proof.
  intros n. unfold pairs. destruct n as [|n]; [reflexivity|].
  replace (S (S n) * (S (S n) - 1)) with (S n * (S n - 1) + S n * 2) by (replace (S (S n) - 1) with (S n) by lia; replace (S n - 1) with n by lia; ring).
  rewrite Nat.div_add; lia.
Qed.
Lemma total_id : forall n, total 0 n (fun j => j) = pairs n.
Proof. induction n; [reflexivity|]. rewrite total_last, IHn, pairs_S. reflexivity. Qed.
Lemma total_rev : forall n, total 0 n (fun j => n - (j + 1)) = pairs n.
Proof.
  intros n. assert (H : forall k, k <= n -> total (n - k) k (fun j => n - (j + 1)) = pairs k).
  { induction k; intros Hk; [reflexivity|]. rewrite pairs_S. cbn [total]. replace (S (n - S k)) with (n - k) by lia. rewrite IHk by lia. lia. }
  specialize (H n (le_n n)). rewrite Nat.sub_diag in H. exact H.
Qed.
Lemma total_rev' : forall n, total 0 n (fun j => n - j) = pairs n + n.
Proof.
  intros n. rewrite (@total_ext n 0 (fun j => n - j) (fun j => (n - (j + 1)) + 1)) by (intros; lia).
  rewrite total_add, total_rev, total_const. lia.
Qed.
Lemma total_id' : forall n, total 0 n (fun j => j + 1) = pairs n + n.
Proof. intros n. rewrite total_add, total_id, total_const. lia. Qed.
Lemma pairs_square : forall n, n * n = 2 * pairs n + n.
Proof. induction n; [reflexivity|]. rewrite pairs_S. replace (S n * S n) with (n * n + 2 * n + 1) by ring. rewrite IHn. lia. Qed.

Section Cost.
Context {O : ops}.
Lemma performs_ret : forall A (x : A), performs (Ret x : prog O A) 0 0.
Proof. intros A x m y m' H. simpl. auto. Qed.
Lemma performs_bind : forall A B (p : prog O A) (f : A -> prog O B) l s l' s', performs p l s -> (forall x, performs (f x) l' s') ->
  performs (bind p f) (l + l') (s + s').
Proof.
  intros A B p f l s l' s' Hp Hf m y m' H. destruct (run p m) as [x m1|e m1] eqn:E.
  - rewrite (run_bind_ok p f m E) in H. rewrite (accesses_bind p f m E), loads_app, stores_app.
    destruct (Hp _ _ _ E) as [-> ->]. destruct (Hf _ _ _ _ H) as [-> ->]. auto.
  - exfalso. clear Hp Hf. revert m E H. induction p as [z|a k IH|a v k IH|e']; intros m E H; simpl in E, H; try discriminate.
    + destruct (m a); [eapply IH; eauto|discriminate].
    + destruct (m a); [eapply IH; eauto|discriminate].
Qed.
Lemma performs_vget : forall (x : vec O) i, performs (vget x i) 1 0.
Proof. intros x i m y m' H. unfold vget in *. destruct (i <? vext x); simpl in *; [|discriminate]. destruct (m (vaddr x i)); [auto|discriminate]. Qed.
Lemma performs_mget : forall (A : mat O) i j, performs (mget A i j) 1 0.
Proof. intros x i j m y m' H. unfold mget in *. destruct ((i <? ext0 x) && (j <? ext1 x)); simpl in *; [|discriminate]. destruct (m (maddr x i j)); [auto|discriminate]. Qed.
Lemma performs_vset : forall (x : vec O) i v, performs (vset x i v) 0 1.
Proof.
  intros x i v m y m' H. unfold vset in *.
  repeat match goal with H : context [match ?b with _ => _ end] |- _ => destruct b; simpl in *; try discriminate; auto end.
Qed.
Lemma performs_mset : forall (A : mat O) i j v, performs (mset A i j v) 0 1.
Proof.
  intros x i j v m y m' H. unfold mset in *.
  repeat match goal with H : context [match ?b with _ => _ end] |- _ => destruct b; simpl in *; try discriminate; auto end.
Qed.
Lemma performs_for_ : forall n lo body l s, (forall i, lo <= i < lo + n -> performs (body i) (l i) (s i)) ->
  performs (for_ lo n body : prog O unit) (total lo n l) (total lo n s).
Proof.
  induction n; intros lo body l s H; simpl; [apply performs_ret|]. apply performs_bind; [apply H; lia|]. intros _. apply IHn. intros; apply H; lia.
Qed.
Lemma performs_for : forall lo hi body l s, (forall i, lo <= i -> i < hi -> performs (body i) (l i) (s i)) ->
  performs (for_range lo hi body : prog O unit) (total lo (hi - lo) l) (total lo (hi - lo) s).
Proof. intros. apply performs_for_. intros; apply H; lia. Qed.
Lemma performs_for_const : forall lo hi body l s, (forall i, lo <= i -> i < hi -> performs (body i) l s) ->
  performs (for_range lo hi body : prog O unit) ((hi - lo) * l) ((hi - lo) * s).
Proof. intros lo hi body l s H. rewrite <- (@total_const _ lo l), <- (@total_const _ lo s). apply performs_for; auto. Qed.
Lemma performs_down : forall n body l s, (forall i, i < n -> performs (body i) (l i) (s i)) ->
  performs (for_down n body : prog O unit) (total 0 n l) (total 0 n s).
Proof.
  induction n; intros body l s H; [apply performs_ret|]. rewrite !total_last. rewrite (Nat.add_comm (total 0 n l)), (Nat.add_comm (total 0 n s)).
  cbn [for_down]. apply performs_bind; [apply H; lia|]. intros _. apply IHn. intros; apply H; lia.
Qed.
Lemma performs_down_const : forall n body l s, (forall i, i < n -> performs (body i) l s) ->
  performs (for_down n body : prog O unit) (n * l) (n * s).
Proof. intros n body l s H. rewrite <- (@total_const _ 0 l), <- (@total_const _ 0 s). apply performs_down; auto. Qed.
Lemma performs_fold_const : forall A lo hi (body : nat -> A -> prog O A) l s, (forall i x, lo <= i -> i < hi -> performs (body i x) l s) ->
  forall x, performs (fold_range lo hi body x) ((hi - lo) * l) ((hi - lo) * s).
Proof.
  intros A lo hi body l s. unfold fold_range. intros H. assert (K : forall i x, lo <= i -> i < lo + (hi - lo) -> performs (body i x) l s) by (intros; apply H; lia).
  clear H. generalize dependent (hi - lo). intros n. revert lo. induction n; intros lo K x; simpl; [apply performs_ret|].
  apply performs_bind; [apply K; lia|]. intros y. apply IHn. intros; apply K; lia.
Qed.
Lemma performs_when : forall b (p : prog O unit) l s, performs p l s -> performs (when b p) (if b then l else 0) (if b then s else 0).
Proof. intros [] p l s H; [exact H|apply performs_ret]. Qed.
Lemma performs_eq : forall A (p : prog O A) l s l' s', performs p l s -> l = l' -> s = s' -> performs p l' s'.
Proof. intros; subst; auto. Qed.
End Cost.

Lemma performs_lo : forall (O : ops) A (z : Z) n (f : nat -> prog O A) l s, z = Z.of_nat n -> performs (f n) l s -> performs (from_index z f) l s.
Proof. intros O A z n f l s -> H. rewrite from_index_nat. exact H. Qed.
Lemma start_ok : forall ty i n, fits ty n -> i < n -> wrap ty (Z.of_nat i + 1) = Z.of_nat (i + 1).
Proof. intros ty i n [H1 H2] Hi. rewrite wrap_id; lia. Qed.
Lemma upper_ok : forall ty d i n, fits ty n -> i < n -> Z.to_nat (k_upper ty d i + 1) = if is_explicit d then (i + 1)%nat else i.
Proof. intros ty d i n [H1 H2] Hi. apply k_upper_ok. lia. Qed.
Lemma performs_upto : forall (O : ops) z n (f : nat -> prog O unit) l s, z = n -> performs (for_range 0 n f) l s -> performs (for_range 0 z f) l s.
Proof. intros; subst; auto. Qed.
Lemma down_ok : forall ty n, fits ty n -> (n = 0 -> ty <> U32) -> Z.to_nat (descending_start ty n + 1) = n.
Proof. intros. rewrite descending_start_ok by auto. lia. Qed.
Lemma down_signed_ok : forall ty n, fits (make_signed ty) n -> Z.to_nat (descending_start_signed ty n + 1) = n.
Proof. intros. rewrite descending_start_signed_ok by auto. lia. Qed.
Lemma fits_signed : forall ty n, fits (make_signed ty) n -> fits ty n.
Proof. intros ty n [H1 H2]. split; auto. assert (max_of (make_signed ty) <= max_of ty)%Z by (destruct ty; vm_compute; congruence). lia. Qed.
Ltac cost := lazymatch goal with
  | |- performs (bind _ _) _ _ => eapply performs_bind; [cost | intros ?; cost]
  | |- performs (for_range 0 (Z.to_nat (k_upper _ _ _ + 1)) _) _ _ => eapply performs_upto; [eapply upper_ok; [eassumption|lia] | cbn [is_explicit]; cost]
  | |- performs (for_range _ _ _) _ _ => first [eapply performs_for_const; intros ? ? ?; cost | eapply performs_for; intros ? ? ?; cost]
  | |- performs (for_down _ _) _ _ => first [eapply performs_down_const; intros ? ?; cost | eapply performs_down; intros ? ?; cost]
  | |- performs (fold_range _ _ _ _) _ _ => eapply performs_fold_const; intros ? ? ? ?; cost
  | |- performs (from_index _ _) _ _ => eapply performs_lo; [first [eapply start_ok; [eassumption|lia] | eapply k_lower_ok; [eassumption|lia]] | cbn [is_explicit]; cost]
  | |- performs (when _ _) _ _ => eapply performs_when; cost
  | |- performs (vget _ _) _ _ => apply performs_vget
  | |- performs (mget _ _ _) _ _ => apply performs_mget
  | |- performs (vset _ _ _) _ _ => apply performs_vset
  | |- performs (mset _ _ _ _) _ _ => apply performs_mset
  | |- performs (Ret _) _ _ => apply performs_ret
  | |- performs (if ?b then mget _ _ _ else mget _ _ _) _ _ => destruct b; apply performs_mget
  | |- performs (if ?b then mget _ _ _ else bind _ _) _ _ => destruct b; [apply performs_mget|eapply performs_eq; [cost|reflexivity|reflexivity]]
  | |- performs (if ?b then Ret _ else Ret _) _ _ => destruct b; apply performs_ret
  end.
Ltac sums := cbn [is_explicit negb]; unfold stored_entries, if_unit, if_explicit; rewrite ?Nat.sub_0_r; repeat (rewrite ?total_add, ?total_mul, ?total_mul_l, ?total_const, ?total_id, ?total_id', ?total_rev, ?total_rev'); cbn [is_explicit negb]; rewrite ?Nat.sub_0_r.
Ltac total_zero := repeat (rewrite (@total_ext _ 0 (fun j => j + 1 - 0) (fun j => j + 1)) by (intros; lia)); repeat (rewrite (@total_ext _ 0 (fun j => j - 0) (fun j => j)) by (intros; lia)).
Ltac squares := repeat match goal with E : ext0 ?A = _ |- _ => rewrite ?E; clear E | E : ext1 ?A = _ |- _ => rewrite ?E; clear E end.
Ltac count := eapply performs_eq; [cost | sums; total_zero; sums; try ring | sums; total_zero; sums; try ring].
Ltac cost_go := intros; opened; unfold make_real; cases; repeat match goal with H : ?x = ?x -> _ |- _ => specialize (H eq_refl) end; unfold tri_lo, tri_hi; cbn [is_explicit negb]; squares; try match goal with F : fits (make_signed _) _ |- _ => pose proof (@fits_signed _ _ F) end; rewrite ?down_ok, ?down_signed_ok by auto;
  count.
Section Algorithms.
Context {O : ops}.
Lemma cost_copy_1 : forall (x y : vec O), performs (copy_1 x y) (vext y) (vext y).
Proof. cost_go. Qed.
Lemma cost_copy_2 : forall (x y : mat O), performs (copy_2 x y) (ext0 y * ext1 y) (ext0 y * ext1 y).
Proof. cost_go. Qed.
Lemma cost_swap_1 : forall (x y : vec O), performs (swap_1 x y) (2 * vext y) (2 * vext y).
Proof. cost_go. Qed.
Lemma cost_swap_2 : forall (x y : mat O), performs (swap_2 x y) (2 * (ext0 y * ext1 y)) (2 * (ext0 y * ext1 y)).
Proof. cost_go. Qed.
Lemma cost_scale_1 : forall alpha (x : vec O), performs (scale_1 alpha x) (vext x) (vext x).
Proof. cost_go. Qed.
Lemma cost_scale_2 : forall alpha (A : mat O), performs (scale_2 alpha A) (ext0 A * ext1 A) (ext0 A * ext1 A).
Proof. cost_go. Qed.
Lemma cost_add_1 : forall (x y z : vec O), performs (add_1 x y z) (2 * vext z) (vext z).
Proof. cost_go. Qed.
Lemma cost_add_2 : forall (x y z : mat O), performs (add_2 x y z) (2 * (ext0 x * ext1 x)) (ext0 x * ext1 x).
Proof. cost_go. Qed.
Lemma cost_dot : forall (v1 v2 : vec O) init, performs (dot v1 v2 init) (2 * vext v1) (0).
Proof. cost_go. Qed.
Lemma cost_givens : forall (x y : vec O) c s, performs (apply_givens_rotation x y c s) (4 * vext x) (2 * vext x).
Proof. cost_go. Qed.
Lemma cost_givens_c : forall (x y : vec O) c s, performs (apply_givens_rotation_c x y c s) (4 * vext x) (2 * vext x).
Proof. cost_go. Qed.
Lemma cost_gemv : forall (A : mat O) x y, performs (matrix_vector_product A x y) (3 * (ext0 A * ext1 A)) (ext0 A * ext1 A + ext0 A).
Proof. cost_go. Qed.
Lemma cost_gemv_upd : forall (A : mat O) x y z, performs (matrix_vector_product_upd A x y z) (3 * (ext0 A * ext1 A) + ext0 A) (ext0 A * ext1 A + ext0 A).
Proof. cost_go. Qed.
Lemma cost_symmv : forall (A : mat O) t x y n, ext0 A = n -> ext1 A = n ->
  performs (symmetric_matrix_vector_product A t x y) (5 * pairs n + 3 * n) (2 * pairs n + 2 * n).
Proof. cost_go. Qed.
Lemma cost_symmv_upd : forall (A : mat O) t x y z n, ext0 A = n -> ext1 A = n ->
  performs (symmetric_matrix_vector_product_upd A t x y z) (5 * pairs n + 4 * n) (2 * pairs n + 2 * n).
Proof. cost_go. Qed.
Lemma cost_hermv : forall (A : mat O) t x y n, ext0 A = n -> ext1 A = n ->
  performs (hermitian_matrix_vector_product A t x y) (5 * pairs n + 3 * n) (2 * pairs n + 2 * n).
Proof. cost_go. Qed.
Lemma cost_hermv_upd : forall (A : mat O) t x y z n, ext0 A = n -> ext1 A = n ->
  performs (hermitian_matrix_vector_product_upd A t x y z) (5 * pairs n + 4 * n) (2 * pairs n + 2 * n).
Proof. cost_go. Qed.
Lemma cost_trmv : forall (A : mat O) t d x y n, ext0 A = n -> ext1 A = n ->
  performs (triangular_matrix_vector_product A t d x y) (3 * stored_entries d n + if_unit d (2 * n)) (pairs n + 2 * n).
Proof. cost_go. Qed.
Lemma cost_trmv_upd : forall (A : mat O) t d x y z n, ext0 A = n -> ext1 A = n ->
  performs (triangular_matrix_vector_product_upd A t d x y z) (3 * stored_entries d n + if_unit d (2 * n) + n) (pairs n + 2 * n).
Proof. cost_go. Qed.
Lemma cost_trmv_inplace : forall (A : mat O) t d y n, ext0 A = n -> ext1 A = n ->
  performs (triangular_matrix_vector_product_inplace A t d y) (2 * stored_entries d n + n) (stored_entries d n).
Proof. cost_go. Qed.
Lemma cost_trsv : forall ty divide (A : mat O) t d b x n, ext0 A = n -> ext1 A = n -> fits ty n -> (n = 0 -> ty <> U32) ->
  performs (triangular_matrix_vector_solve_with ty divide A t d b x) (2 * pairs n + n + if_explicit d n) (n).
Proof. cost_go. Qed.
Lemma cost_ger : forall (x y : vec O) A, performs (matrix_rank_1_update x y A) (3 * (ext0 A * ext1 A)) (ext0 A * ext1 A).
Proof. cost_go. Qed.
Lemma cost_sym_r1_alpha : forall alpha (x : vec O) A t n, ext0 A = n -> ext1 A = n ->
  performs (symmetric_matrix_rank_1_update_alpha alpha x A t) (3 * (pairs n + n)) (pairs n + n).
Proof. cost_go. Qed.
Lemma cost_sym_r1 : forall (x : vec O) A t n, ext0 A = n -> ext1 A = n ->
  performs (symmetric_matrix_rank_1_update x A t) (3 * (pairs n + n)) (pairs n + n).
Proof. cost_go. Qed.
Lemma cost_sym_r2 : forall (x y : vec O) A t n, ext0 A = n -> ext1 A = n ->
  performs (symmetric_matrix_rank_2_update x y A t) (5 * (pairs n + n)) (pairs n + n).
Proof. cost_go. Qed.
Lemma cost_her_r1_alpha : forall alpha (x : vec O) A t n, ext0 A = n -> ext1 A = n ->
  performs (hermitian_matrix_rank_1_update_alpha alpha x A t) (3 * (pairs n + n) + n) (pairs n + n + n).
Proof. cost_go. Qed.
Lemma cost_her_r1 : forall (x : vec O) A t n, ext0 A = n -> ext1 A = n ->
  performs (hermitian_matrix_rank_1_update x A t) (3 * (pairs n + n) + n) (pairs n + n + n).
Proof. cost_go. Qed.
Lemma cost_her_r2 : forall (x y : vec O) A t n, ext0 A = n -> ext1 A = n ->
  performs (hermitian_matrix_rank_2_update x y A t) (5 * (pairs n + n) + n) (pairs n + n + n).
Proof. cost_go. Qed.
Lemma cost_gemm : forall (A B C : mat O), performs (matrix_product A B C) (3 * (ext0 C * ext1 C * ext1 A)) (ext0 C * ext1 C * ext1 A + ext0 C * ext1 C).
Proof. cost_go. Qed.
Lemma cost_gemm_upd : forall (A B E C : mat O), performs (matrix_product_upd A B E C) (3 * (ext0 C * ext1 C * ext1 A) + ext0 C * ext1 C) (ext0 C * ext1 C * ext1 A + ext0 C * ext1 C).
Proof. cost_go. Qed.
Lemma cost_trmm_left : forall ty (A B C : mat O) t d n r, ext0 C = n -> ext1 C = r -> fits ty n ->
  performs (triangular_matrix_product_left ty A t d B C) (r * (3 * stored_entries d n + if_unit d (2 * n))) (r * (pairs n + 2 * n)).
Proof. cost_go. Qed.
Lemma cost_trmm_right : forall ty (A B C : mat O) t d n r, ext1 C = n -> ext0 C = r -> fits ty n ->
  performs (triangular_matrix_product_right ty B A t d C) (r * (3 * stored_entries d n + if_unit d (2 * n))) (r * (pairs n + 2 * n)).
Proof. cost_go. Qed.
Lemma cost_trmm_left_inplace : forall (A C : mat O) t d n r, ext0 C = n -> ext1 C = r ->
  performs (triangular_matrix_left_product A t d C) (r * (3 * pairs n + if_explicit d (2 * n))) (r * stored_entries d n).
Proof. cost_go. Qed.
Lemma cost_trmm_right_inplace : forall (A C : mat O) t d n r, ext1 C = n -> ext0 C = r ->
  performs (triangular_matrix_right_product A t d C) (r * (3 * pairs n + if_explicit d (2 * n))) (r * stored_entries d n).
Proof. cost_go. Qed.
Lemma cost_symm_left : forall (A B C : mat O) t, performs (symmetric_matrix_product_left A t B C) (3 * (ext0 C * ext1 C * ext1 A)) (ext0 C * ext1 C * ext1 A + ext0 C * ext1 C).
Proof. cost_go. Qed.
Lemma cost_symm_right : forall (A B C : mat O) t, performs (symmetric_matrix_product_right B A t C) (3 * (ext0 C * ext1 C * ext1 A)) (ext0 C * ext1 C * ext1 A + ext0 C * ext1 C).
Proof. cost_go. Qed.
Lemma cost_hemm_left : forall (A B C : mat O) t n r, ext0 A = n -> ext1 A = n -> ext0 C = n -> ext1 C = r ->
  performs (hermitian_matrix_product_left A t B C) (3 * (n * r * n)) (n * r * n + n * r).
Proof. cost_go; replace (n * r * n) with (r * (n * n)) by ring; rewrite pairs_square; ring. Qed.
Lemma cost_hemm_right : forall (A B C : mat O) t, performs (hermitian_matrix_product_right B A t C) (3 * (ext0 C * ext1 C * ext1 A)) (ext0 C * ext1 C * ext1 A + ext0 C * ext1 C).
Proof. cost_go. Qed.
Lemma cost_sym_rk_alpha : forall alpha (A C : mat O) t n, ext0 C = n -> ext1 C = n ->
  performs (symmetric_matrix_rank_k_update_alpha alpha A C t) (3 * ((pairs n + n) * ext1 A)) ((pairs n + n) * ext1 A).
Proof. cost_go. Qed.
Lemma cost_sym_rk : forall (A C : mat O) t n, ext0 C = n -> ext1 C = n ->
  performs (symmetric_matrix_rank_k_update A C t) (3 * ((pairs n + n) * ext1 A)) ((pairs n + n) * ext1 A).
Proof. cost_go. Qed.
Lemma cost_sym_r2k : forall (A B C : mat O) t n, ext0 C = n -> ext1 C = n ->
  performs (symmetric_matrix_rank_2k_update A B C t) (5 * ((pairs n + n) * ext1 A)) ((pairs n + n) * ext1 A).
Proof. cost_go. Qed.
Lemma cost_her_rk_alpha : forall alpha (A C : mat O) t n, ext0 C = n -> ext1 C = n ->
  performs (hermitian_matrix_rank_k_update_alpha alpha A C t) (3 * ((pairs n + n) * ext1 A) + n) ((pairs n + n) * ext1 A + n).
Proof. cost_go. Qed.
Lemma cost_her_rk : forall (A C : mat O) t n, ext0 C = n -> ext1 C = n ->
  performs (hermitian_matrix_rank_k_update A C t) (3 * ((pairs n + n) * ext1 A) + n) ((pairs n + n) * ext1 A + n).
Proof. cost_go. Qed.
Lemma cost_her_r2k : forall (A B C : mat O) t n, ext0 C = n -> ext1 C = n ->
  performs (hermitian_matrix_rank_2k_update A B C t) (5 * ((pairs n + n) * ext1 A) + n) ((pairs n + n) * ext1 A + n).
Proof. cost_go. Qed.
Lemma cost_trsm_left : forall ty (A B X : mat O) t d n r, ext0 A = n -> ext1 B = r -> fits ty n -> (n = 0 -> ty <> U32) ->
  performs (triangular_matrix_matrix_left_solve ty A t d B X) (r * (2 * pairs n + n + if_explicit d n)) (r * n).
Proof. cost_go. Qed.
Lemma cost_trsm_right : forall ty (A B X : mat O) t d n r, ext0 A = n -> ext1 A = n -> ext0 B = r -> (t = Lower -> fits (make_signed ty) n) ->
  performs (triangular_matrix_matrix_right_solve ty A t d B X) (r * (2 * pairs n + n + if_explicit d n)) (r * n).
Proof. cost_go. Qed.
End Algorithms.

Section Norms.
Context {O : ops} {F : rops} (M : mags O F).
Lemma cost_abs_sum : forall (v : vec O) init, performs (vector_abs_sum M v init) ((if arithmetic M then 1 else 2) * vext v) 0.
Proof. intros. unfold vector_abs_sum. destruct (arithmetic M); count. Qed.
Lemma performs_frob_step : forall (A : mat O) i j s, performs (frob_step M A i j s) 1 0.
Proof.
  intros A i j s. unfold frob_step. eapply performs_eq; [eapply performs_bind; [apply performs_mget|]|reflexivity|reflexivity].
  intros a. cbv zeta. destruct (reqb _ _); [apply performs_ret|]. destruct (rltb _ _); apply performs_ret.
Qed.
Lemma performs_small : forall (A : mat O) X (p : prog O X) (e : X) (f : O -> X), performs p (ext0 A * ext1 A) 0 ->
  performs (if (ext0 A =? 0) || (ext1 A =? 0) then Ret e else if (ext0 A =? 1) && (ext1 A =? 1) then bind (mget A 0 0) (fun a => Ret (f a)) else p) (ext0 A * ext1 A) 0.
Proof.
  intros A X p e f H. destruct (Nat.eqb_spec (ext0 A) 0) as [E|E]; simpl; [rewrite E; apply performs_ret|].
  destruct (Nat.eqb_spec (ext1 A) 0) as [E'|E']; simpl; [rewrite E', Nat.mul_0_r; apply performs_ret|].
  destruct (Nat.eqb_spec (ext0 A) 1) as [E1|_]; cbn [andb]; [|exact H].
  destruct (Nat.eqb_spec (ext1 A) 1) as [E2|_]; cbn [andb]; [|exact H]. rewrite E1, E2. eapply performs_eq; [cost|reflexivity|reflexivity].
Qed.
Lemma cost_frob : forall (A : mat O) init, performs (matrix_frob_norm M A init) (ext0 A * ext1 A) 0.
Proof.
  intros. unfold matrix_frob_norm. apply performs_small. eapply performs_eq;
    [eapply performs_bind; [eapply performs_fold_const; intros; eapply performs_fold_const; intros; apply performs_frob_step|intros; apply performs_ret]|sums; ring|sums; ring].
Qed.
Lemma cost_inf : forall (A : mat O) init, performs (matrix_inf_norm M A init) (ext0 A * ext1 A) 0.
Proof. intros. unfold matrix_inf_norm. apply performs_small. count. Qed.
Lemma cost_one : forall (A : mat O) init, performs (matrix_one_norm M A init) (ext0 A * ext1 A) 0.
Proof. intros. unfold matrix_one_norm. apply performs_small. count. Qed.

Lemma count_flat : forall (b : nat -> bool) (a : nat -> nat) l,
  loads (flat_map (fun i => if b i then [Loads (a i)] else [Loads (a i); Loads (a i)]) l) = length l + length (filter (fun i => negb (b i)) l) /\
  stores (flat_map (fun i => if b i then [Loads (a i)] else [Loads (a i); Loads (a i)]) l) = 0.
Proof.
  intros b a l. induction l as [|i l IH]; [auto|]. cbn [flat_map filter length]. rewrite loads_app, stores_app. destruct IH as [-> ->].
  destruct (b i); simpl; lia.
Qed.
Lemma cost_ssq : forall (m : mem O) x f init, vec_holds m x f ->
  loads (accesses (vector_sum_of_squares M x init) m) = vext x + length (filter (fun i => negb (reqb (eabs M (f i)) r0)) (seq 0 (vext x))) /\
  stores (accesses (vector_sum_of_squares M x init) m) = 0.
Proof. intros m x f init H. rewrite (proj2 (ssq_reads M init H)). unfold load_v. replace (vext x + length _) with (length (seq 0 (vext x)) + length (filter (fun i => negb (reqb (eabs M (f i)) r0)) (seq 0 (vext x)))) by (rewrite seq_length; reflexivity). apply (count_flat (fun i => reqb (eabs M (f i)) r0) (vaddr x)). Qed.
Lemma cost_two_norm : forall (m : mem O) x f init, vec_holds m x f ->
  loads (accesses (vector_two_norm M x init) m) = vext x + length (filter (fun i => negb (reqb (eabs M (f i)) r0)) (seq 0 (vext x))) /\
  stores (accesses (vector_two_norm M x init) m) = 0.
Proof. intros m x f init H. rewrite (two_norm_reads M init H). unfold load_v. replace (vext x + length _) with (length (seq 0 (vext x)) + length (filter (fun i => negb (reqb (eabs M (f i)) r0)) (seq 0 (vext x)))) by (rewrite seq_length; reflexivity). apply (count_flat (fun i => reqb (eabs M (f i)) r0) (vaddr x)). Qed.
End Norms.
Section Idx.
Context {O : ops} {M : Type}.
Lemma cost_idx_complex : forall (mre mim : O -> M) plus ltb size_max v, performs (idx_abs_max_complex mre mim plus ltb size_max v) (2 * vext v) 0.
Proof.
  intros. unfold idx_abs_max_complex. destruct (Nat.eqb_spec (vext v) 0) as [E|E]; [rewrite E; apply performs_ret|].
  eapply performs_eq; [cost|lia|lia].
Qed.
Lemma cost_idx_arithmetic : forall (mag : O -> M) ltb size_max (m : mem O) v f, vec_holds m v f ->
  loads (accesses (idx_abs_max_arithmetic mag ltb size_max v) m) =
  vext v + length (filter (fun i => ltb (largest ltb (fun k => mag (f k)) (i - 1)) (mag (f i))) (seq 1 (vext v - 1))) /\
  stores (accesses (idx_abs_max_arithmetic mag ltb size_max v) m) = 0.
Proof.
  intros mag ltb size_max m v f H. destruct (Nat.eq_dec (vext v) 0) as [E|E].
  - unfold idx_abs_max_arithmetic. rewrite E. simpl. auto.
  - rewrite (idx_arithmetic_reads mag ltb size_max H) by lia. unfold load_v. cbn [loads stores].
    assert (K : forall (b : nat -> bool) (a : nat -> nat) l,
      loads (flat_map (fun i => if b i then [Loads (a i); Loads (a i)] else [Loads (a i)]) l) = length l + length (filter b l) /\
      stores (flat_map (fun i => if b i then [Loads (a i); Loads (a i)] else [Loads (a i)]) l) = 0).
    { intros b a l. induction l as [|i l IH]; [auto|]. cbn [flat_map filter length]. rewrite loads_app, stores_app. destruct IH as [-> ->].
      destruct (b i); simpl; lia. }
    destruct (K (fun i => ltb (largest ltb (fun k => mag (f k)) (i - 1)) (mag (f i))) (vaddr v) (seq 1 (vext v - 1))) as [-> ->].
    rewrite seq_length. lia.
Qed.
End Idx.

(** Footprints of the inline algorithms (C85): proofs.  The statements are generated. *)
From Coq Require Import List Arith NArith ZArith Bool Lia.
From Verif Require Import Mem Scalar View Spec Idx Blas1 Blas2 Blas3 Norm Wp PfTrsv PfTrsm PfBlas3 SpecRace.
Import ListNotations.
Set Implicit Arguments.

Lemma touches_ret : forall T A (x : A) (R W : cellset), touches (T := T) (Ret x) R W.
Proof. intros; exact I. Qed.
Lemma touches_fail : forall T A e (R W : cellset), touches (T := T) (A := A) (Fail e) R W.
Proof. intros; exact I. Qed.
Lemma touches_bind : forall T A B (p : prog T A) (f : A -> prog T B) R W,
  touches p R W -> (forall x, touches (f x) R W) -> touches (bind p f) R W.
Proof.
  intros T A B. induction p as [x|a k IH|a v k IH|e]; simpl; intros f R W Hp Hf; auto; destruct Hp; split; auto.
Qed.
Lemma touches_when : forall T b (p : prog T unit) R W, (b = true -> touches p R W) -> touches (when b p) R W.
Proof. intros T [|] p R W H; simpl; auto. Qed.
Lemma touches_for : forall T (b : nat -> prog T unit) hi R W lo, (forall i, lo <= i < hi -> touches (b i) R W) -> touches (for_range lo hi b) R W.
Proof.
  intros T b hi R W lo. unfold for_range. remember (hi - lo) as n eqn:E. revert lo E.
  induction n as [|n IH]; intros lo E H; simpl; auto. apply touches_bind; [apply H; lia|]. intros _. apply IH; [lia|]. intros; apply H; lia.
Qed.
Lemma touches_fold : forall T A (b : nat -> A -> prog T A) hi R W lo acc, (forall i a, lo <= i < hi -> touches (b i a) R W) ->
  touches (fold_range lo hi b acc) R W.
Proof.
  intros T A b hi R W lo. unfold fold_range. remember (hi - lo) as n eqn:E. revert lo E.
  induction n as [|n IH]; intros lo E acc H; simpl; auto. apply touches_bind; [apply H; lia|]. intros x. apply IH; [lia|]. intros; apply H; lia.
Qed.
Lemma touches_down : forall T (b : nat -> prog T unit) R W n, (forall i, i < n -> touches (b i) R W) -> touches (for_down n b) R W.
Proof. induction n as [|n IH]; intros H; simpl; auto. apply touches_bind; [apply H; lia|]. intros _. apply IH. intros; apply H; lia. Qed.
Section Access.
Context {O : ops}.
Lemma touches_vget : forall (x : vec O) i (R W : cellset), (i < vext x -> R (vaddr x i)) -> touches (vget x i) R W.
Proof. intros x i R W H. unfold vget. destruct (Nat.ltb_spec i (vext x)); simpl; auto. Qed.
Lemma touches_mget : forall (A : mat O) i j (R W : cellset), (i < ext0 A -> j < ext1 A -> R (maddr A i j)) -> touches (mget A i j) R W.
Proof. intros A i j R W H. unfold mget. destruct (Nat.ltb_spec i (ext0 A)), (Nat.ltb_spec j (ext1 A)); simpl; auto. Qed.
Lemma touches_vset : forall (x : vec O) i v (R W : cellset), (i < vext x -> W (vaddr x i)) -> touches (vset x i v) R W.
Proof. intros x i v R W H. unfold vset. destruct (vacc x); simpl; auto. destruct (Nat.ltb_spec i (vext x)); simpl; auto. Qed.
Lemma touches_mset : forall (A : mat O) i j v (R W : cellset), (i < ext0 A -> j < ext1 A -> W (maddr A i j)) -> touches (mset A i j v) R W.
Proof. intros A i j v R W H. unfold mset. destruct (macc A); simpl; auto. destruct (Nat.ltb_spec i (ext0 A)), (Nat.ltb_spec j (ext1 A)); simpl; auto. Qed.
Lemma touches_from : forall A z (k : nat -> prog O A) R W, (forall n, z = Z.of_nat n -> touches (k n) R W) -> touches (from_index z k) R W.
Proof. intros A z k R W H. unfold from_index. destruct (Z.ltb_spec z 0); simpl; auto. apply H. rewrite Z2Nat.id; auto. Qed.
End Access.

Ltac inside :=
  repeat match goal with H : wrap ?ty ?z = Z.of_nat _, F : fits ?ty _ |- _ => rewrite wrap_id in H by (destruct F; lia) end;
  repeat match goal with H : context [k_upper ?ty ?d ?i], F : fits ?ty _ |- _ => rewrite k_upper_ok in H by (destruct F; lia); simpl in H end;
  lazymatch goal with
  | |- (_ +++ _) _ => first [left; inside | right; inside]
  | |- vcells _ _ => solve [eexists; split; [|reflexivity]; assumption]
  | |- mcells_on _ _ _ => solve [do 2 eexists; split; [|split; [|split; [|reflexivity]]]; [assumption|assumption|];
      unfold stored, in_tri; try split; try congruence; try lia]
  | |- mcells _ _ => solve [do 2 eexists; split; [|split; [|split; [|reflexivity]]]; [assumption|assumption|exact I]]
  end.
Ltac foot :=
  repeat (cbv beta zeta; lazymatch goal with
  | |- touches (bind _ _) _ _ => apply touches_bind; [|intros]
  | |- touches (for_range _ _ _) _ _ => apply touches_for; intros
  | |- touches (fold_range _ _ _ _) _ _ => apply touches_fold; intros
  | |- touches (for_down _ _) _ _ => apply touches_down; intros
  | |- touches (when _ _) _ _ => apply touches_when; intros
  | |- touches (from_index _ _) _ _ => apply touches_from; intros
  | |- touches (vget _ _) _ _ => apply touches_vget; intros; inside
  | |- touches (mget _ _ _) _ _ => apply touches_mget; intros; inside
  | |- touches (vset _ _ _) _ _ => apply touches_vset; intros; inside
  | |- touches (mset _ _ _ _) _ _ => apply touches_mset; intros; inside
  | |- touches (vacc_add _ _ _) _ _ => unfold vacc_add
  | |- touches (macc_add _ _ _ _) _ _ => unfold macc_add
  | |- touches (make_real _ _) _ _ => unfold make_real
  | |- touches (Ret _) _ _ => exact I
  | |- touches (Fail _) _ _ => exact I
  | |- touches (if (?a <=? ?b) then _ else _) _ _ => destruct (Nat.leb_spec a b)
  | |- touches (if (?a <? ?b) then _ else _) _ _ => destruct (Nat.ltb_spec a b)
  | |- touches (if (?a =? ?b) then _ else _) _ _ => destruct (Nat.eqb_spec a b)
  | |- touches (if ?c then _ else _) _ _ => destruct c
  | |- touches (let (_, _) := ?p in _) _ _ => destruct p
  end).
Ltac open_all :=
  intros; unfold zero_rows, copy_rows, tri_mv_loop, trmv_loop, tri_lo, tri_hi, triangular_matrix_vector_solve_with, trsv_upper, trsv_lower,
    trsm_upper_left, trsm_lower_left, trsm_upper_right, trsm_lower_right, ssq_step, frob_step, k_lower, is_explicit in *; cbv zeta;
  try match goal with t : triangle |- _ => destruct t end; try match goal with d : diagonal |- _ => destruct d end; cbv iota.

Lemma copy_1_foot : forall (O : ops) (x y : vec O),
  touches (copy_1 x y) (vcells x) (vcells y).
Proof. unfold copy_1; open_all; foot. Qed.

Lemma copy_2_foot : forall (O : ops) (x y : mat O),
  touches (copy_2 x y) (mcells x) (mcells y).
Proof. unfold copy_2; open_all; foot. Qed.

Lemma swap_1_foot : forall (O : ops) (x y : vec O),
  touches (swap_1 x y) (vcells x +++ vcells y) (vcells x +++ vcells y).
Proof. unfold swap_1; open_all; foot. Qed.

Lemma swap_2_foot : forall (O : ops) (x y : mat O),
  touches (swap_2 x y) (mcells x +++ mcells y) (mcells x +++ mcells y).
Proof. unfold swap_2; open_all; foot. Qed.

Lemma scale_1_foot : forall (O : ops) (alpha : O) (x : vec O),
  touches (scale_1 alpha x) (vcells x) (vcells x).
Proof. unfold scale_1; open_all; foot. Qed.

Lemma scale_2_foot : forall (O : ops) (alpha : O) (A : mat O),
  touches (scale_2 alpha A) (mcells A) (mcells A).
Proof. unfold scale_2; open_all; foot. Qed.

Lemma add_1_foot : forall (O : ops) (x y z : vec O),
  touches (add_1 x y z) (vcells x +++ vcells y) (vcells z).
Proof. unfold add_1; open_all; foot. Qed.

Lemma add_2_foot : forall (O : ops) (x y z : mat O),
  touches (add_2 x y z) (mcells x +++ mcells y) (mcells z).
Proof. unfold add_2; open_all; foot. Qed.

Lemma dot_foot : forall (O : ops) (v1 v2 : vec O) (init : O),
  touches (dot v1 v2 init) (vcells v1 +++ vcells v2) (none).
Proof. unfold dot; open_all; foot. Qed.

Lemma vector_idx_abs_max_foot : forall (O : ops) (M : Type) (mag : O -> M) (ltb : M -> M -> bool) (size_max : N) (v : vec O),
  touches (vector_idx_abs_max mag ltb size_max v) (vcells v) (none).
Proof. unfold vector_idx_abs_max; open_all; foot. Qed.

Lemma apply_givens_rotation_foot : forall (O : ops) (x y : vec O) (c s : O),
  touches (apply_givens_rotation x y c s) (vcells x +++ vcells y) (vcells x +++ vcells y).
Proof. unfold apply_givens_rotation; open_all; foot. Qed.

Lemma apply_givens_rotation_c_foot : forall (O : ops) (x y : vec O) (c s : O),
  touches (apply_givens_rotation_c x y c s) (vcells x +++ vcells y) (vcells x +++ vcells y).
Proof. unfold apply_givens_rotation_c; open_all; foot. Qed.

Lemma matrix_vector_product_foot : forall (O : ops) (A : mat O) (x y : vec O),
  touches (matrix_vector_product A x y) (mcells A +++ vcells x +++ vcells y) (vcells y).
Proof. unfold matrix_vector_product; open_all; foot. Qed.

Lemma matrix_vector_product_upd_foot : forall (O : ops) (A : mat O) (x y z : vec O),
  touches (matrix_vector_product_upd A x y z) (mcells A +++ vcells x +++ vcells y +++ vcells z) (vcells z).
Proof. unfold matrix_vector_product_upd; open_all; foot. Qed.

Lemma symmetric_matrix_vector_product_foot : forall (O : ops) (A : mat O) (t : triangle) (x y : vec O),
  touches (symmetric_matrix_vector_product A t x y) (mcells_on A (in_tri t) +++ vcells x +++ vcells y) (vcells y).
Proof. unfold symmetric_matrix_vector_product; open_all; foot. Qed.

Lemma symmetric_matrix_vector_product_upd_foot : forall (O : ops) (A : mat O) (t : triangle) (x y z : vec O),
  touches (symmetric_matrix_vector_product_upd A t x y z) (mcells_on A (in_tri t) +++ vcells x +++ vcells y +++ vcells z) (vcells z).
Proof. unfold symmetric_matrix_vector_product_upd; open_all; foot. Qed.

Lemma hermitian_matrix_vector_product_foot : forall (O : ops) (A : mat O) (t : triangle) (x y : vec O),
  touches (hermitian_matrix_vector_product A t x y) (mcells_on A (in_tri t) +++ vcells x +++ vcells y) (vcells y).
Proof. unfold hermitian_matrix_vector_product; open_all; foot. Qed.

Lemma hermitian_matrix_vector_product_upd_foot : forall (O : ops) (A : mat O) (t : triangle) (x y z : vec O),
  touches (hermitian_matrix_vector_product_upd A t x y z) (mcells_on A (in_tri t) +++ vcells x +++ vcells y +++ vcells z) (vcells z).
Proof. unfold hermitian_matrix_vector_product_upd; open_all; foot. Qed.

Lemma triangular_matrix_vector_product_foot : forall (O : ops) (A : mat O) (t : triangle) (d : diagonal) (x y : vec O),
  touches (triangular_matrix_vector_product A t d x y) (mcells_on A (stored t d) +++ vcells x +++ vcells y) (vcells y).
Proof. unfold triangular_matrix_vector_product; open_all; foot. Qed.

Lemma triangular_matrix_vector_product_upd_foot : forall (O : ops) (A : mat O) (t : triangle) (d : diagonal) (x y z : vec O),
  touches (triangular_matrix_vector_product_upd A t d x y z) (mcells_on A (stored t d) +++ vcells x +++ vcells y +++ vcells z) (vcells z).
Proof. unfold triangular_matrix_vector_product_upd; open_all; foot. Qed.

Lemma triangular_matrix_vector_product_inplace_foot : forall (O : ops) (A : mat O) (t : triangle) (d : diagonal) (y : vec O),
  touches (triangular_matrix_vector_product_inplace A t d y) (mcells_on A (stored t d) +++ vcells y) (vcells y).
Proof. unfold triangular_matrix_vector_product_inplace; open_all; foot. Qed.

Lemma triangular_matrix_vector_solve_foot : forall (O : ops) (ty : ity) (A : mat O) (t : triangle) (d : diagonal) (b x : vec O),
  fits ty (ext0 A) -> touches (triangular_matrix_vector_solve ty A t d b x) (mcells_on A (stored t d) +++ vcells b +++ vcells x) (vcells x).
Proof. unfold triangular_matrix_vector_solve; open_all; foot. Qed.

Lemma matrix_rank_1_update_foot : forall (O : ops) (x y : vec O) (A : mat O),
  touches (matrix_rank_1_update x y A) (vcells x +++ vcells y +++ mcells A) (mcells A).
Proof. unfold matrix_rank_1_update; open_all; foot. Qed.

Lemma symmetric_matrix_rank_1_update_alpha_foot : forall (O : ops) (alpha : O) (x : vec O) (A : mat O) (t : triangle),
  touches (symmetric_matrix_rank_1_update_alpha alpha x A t) (vcells x +++ mcells_on A (in_tri t)) (mcells_on A (in_tri t)).
Proof. unfold symmetric_matrix_rank_1_update_alpha; open_all; foot. Qed.

Lemma symmetric_matrix_rank_1_update_foot : forall (O : ops) (x : vec O) (A : mat O) (t : triangle),
  touches (symmetric_matrix_rank_1_update x A t) (vcells x +++ mcells_on A (in_tri t)) (mcells_on A (in_tri t)).
Proof. unfold symmetric_matrix_rank_1_update; open_all; foot. Qed.

Lemma symmetric_matrix_rank_2_update_foot : forall (O : ops) (x y : vec O) (A : mat O) (t : triangle),
  touches (symmetric_matrix_rank_2_update x y A t) (vcells x +++ vcells y +++ mcells_on A (in_tri t)) (mcells_on A (in_tri t)).
Proof. unfold symmetric_matrix_rank_2_update; open_all; foot. Qed.

Lemma hermitian_matrix_rank_1_update_alpha_foot : forall (O : ops) (alpha : O) (x : vec O) (A : mat O) (t : triangle),
  touches (hermitian_matrix_rank_1_update_alpha alpha x A t) (vcells x +++ mcells_on A (in_tri t)) (mcells_on A (in_tri t)).
Proof. unfold hermitian_matrix_rank_1_update_alpha; open_all; foot. Qed.

Lemma hermitian_matrix_rank_1_update_foot : forall (O : ops) (x : vec O) (A : mat O) (t : triangle),
  touches (hermitian_matrix_rank_1_update x A t) (vcells x +++ mcells_on A (in_tri t)) (mcells_on A (in_tri t)).
Proof. unfold hermitian_matrix_rank_1_update; open_all; foot. Qed.

Lemma hermitian_matrix_rank_2_update_foot : forall (O : ops) (x y : vec O) (A : mat O) (t : triangle),
  touches (hermitian_matrix_rank_2_update x y A t) (vcells x +++ vcells y +++ mcells_on A (in_tri t)) (mcells_on A (in_tri t)).
Proof. unfold hermitian_matrix_rank_2_update; open_all; foot. Qed.

Lemma matrix_product_foot : forall (O : ops) (A B C : mat O),
  touches (matrix_product A B C) (mcells A +++ mcells B +++ mcells C) (mcells C).
Proof. unfold matrix_product; open_all; foot. Qed.

Lemma matrix_product_upd_foot : forall (O : ops) (A B E C : mat O),
  touches (matrix_product_upd A B E C) (mcells A +++ mcells B +++ mcells E +++ mcells C) (mcells C).
Proof. unfold matrix_product_upd; open_all; foot. Qed.

Lemma triangular_matrix_product_left_foot : forall (O : ops) (ty : ity) (A : mat O) (t : triangle) (d : diagonal) (B C : mat O),
  fits ty (ext0 C) -> touches (triangular_matrix_product_left ty A t d B C) (mcells_on A (stored t d) +++ mcells B +++ mcells C) (mcells C).
Proof. unfold triangular_matrix_product_left; open_all; foot. Qed.

Lemma triangular_matrix_product_right_foot : forall (O : ops) (ty : ity) (B A : mat O) (t : triangle) (d : diagonal) (C : mat O),
  fits ty (ext1 C) -> touches (triangular_matrix_product_right ty B A t d C) (mcells_on A (stored t d) +++ mcells B +++ mcells C) (mcells C).
Proof. unfold triangular_matrix_product_right; open_all; foot. Qed.

Lemma triangular_matrix_left_product_foot : forall (O : ops) (A : mat O) (t : triangle) (d : diagonal) (C : mat O),
  touches (triangular_matrix_left_product A t d C) (mcells_on A (stored t d) +++ mcells C) (mcells C).
Proof. unfold triangular_matrix_left_product; open_all; foot. Qed.

Lemma triangular_matrix_right_product_foot : forall (O : ops) (A : mat O) (t : triangle) (d : diagonal) (C : mat O),
  touches (triangular_matrix_right_product A t d C) (mcells_on A (stored t d) +++ mcells C) (mcells C).
Proof. unfold triangular_matrix_right_product; open_all; foot. Qed.

Lemma symmetric_matrix_product_left_foot : forall (O : ops) (A : mat O) (t : triangle) (B C : mat O),
  touches (symmetric_matrix_product_left A t B C) (mcells_on A (in_tri t) +++ mcells B +++ mcells C) (mcells C).
Proof. unfold symmetric_matrix_product_left; open_all; foot. Qed.

Lemma symmetric_matrix_product_right_foot : forall (O : ops) (B A : mat O) (t : triangle) (C : mat O),
  touches (symmetric_matrix_product_right B A t C) (mcells_on A (in_tri t) +++ mcells B +++ mcells C) (mcells C).
Proof. unfold symmetric_matrix_product_right; open_all; foot. Qed.

Lemma hermitian_matrix_product_left_foot : forall (O : ops) (A : mat O) (t : triangle) (B C : mat O),
  touches (hermitian_matrix_product_left A t B C) (mcells_on A (in_tri t) +++ mcells B +++ mcells C) (mcells C).
Proof. unfold hermitian_matrix_product_left; open_all; foot. Qed.

Lemma hermitian_matrix_product_right_foot : forall (O : ops) (B A : mat O) (t : triangle) (C : mat O),
  touches (hermitian_matrix_product_right B A t C) (mcells_on A (in_tri t) +++ mcells B +++ mcells C) (mcells C).
Proof. unfold hermitian_matrix_product_right; open_all; foot. Qed.

Lemma symmetric_matrix_rank_k_update_alpha_foot : forall (O : ops) (alpha : O) (A C : mat O) (t : triangle),
  touches (symmetric_matrix_rank_k_update_alpha alpha A C t) (mcells A +++ mcells_on C (in_tri t)) (mcells_on C (in_tri t)).
Proof. unfold symmetric_matrix_rank_k_update_alpha; open_all; foot. Qed.

Lemma symmetric_matrix_rank_k_update_foot : forall (O : ops) (A C : mat O) (t : triangle),
  touches (symmetric_matrix_rank_k_update A C t) (mcells A +++ mcells_on C (in_tri t)) (mcells_on C (in_tri t)).
Proof. unfold symmetric_matrix_rank_k_update; open_all; foot. Qed.

Lemma symmetric_matrix_rank_2k_update_foot : forall (O : ops) (A B C : mat O) (t : triangle),
  touches (symmetric_matrix_rank_2k_update A B C t) (mcells A +++ mcells B +++ mcells_on C (in_tri t)) (mcells_on C (in_tri t)).
Proof. unfold symmetric_matrix_rank_2k_update; open_all; foot. Qed.

Lemma hermitian_matrix_rank_k_update_alpha_foot : forall (O : ops) (alpha : O) (A C : mat O) (t : triangle),
  touches (hermitian_matrix_rank_k_update_alpha alpha A C t) (mcells A +++ mcells_on C (in_tri t)) (mcells_on C (in_tri t)).
Proof. unfold hermitian_matrix_rank_k_update_alpha; open_all; foot. Qed.

Lemma hermitian_matrix_rank_k_update_foot : forall (O : ops) (A C : mat O) (t : triangle),
  touches (hermitian_matrix_rank_k_update A C t) (mcells A +++ mcells_on C (in_tri t)) (mcells_on C (in_tri t)).
Proof. unfold hermitian_matrix_rank_k_update; open_all; foot. Qed.

Lemma hermitian_matrix_rank_2k_update_foot : forall (O : ops) (A B C : mat O) (t : triangle),
  touches (hermitian_matrix_rank_2k_update A B C t) (mcells A +++ mcells B +++ mcells_on C (in_tri t)) (mcells_on C (in_tri t)).
Proof. unfold hermitian_matrix_rank_2k_update; open_all; foot. Qed.

Lemma triangular_matrix_matrix_left_solve_foot : forall (O : ops) (ty : ity) (A : mat O) (t : triangle) (d : diagonal) (B X : mat O),
  fits ty (ext0 A) -> touches (triangular_matrix_matrix_left_solve ty A t d B X) (mcells_on A (stored t d) +++ mcells B +++ mcells X) (mcells X).
Proof. unfold triangular_matrix_matrix_left_solve; open_all; foot. Qed.

Lemma triangular_matrix_matrix_right_solve_foot : forall (O : ops) (ty : ity) (A : mat O) (t : triangle) (d : diagonal) (B X : mat O),
  fits ty (ext1 A) -> touches (triangular_matrix_matrix_right_solve ty A t d B X) (mcells_on A (stored t d) +++ mcells B +++ mcells X) (mcells X).
Proof. unfold triangular_matrix_matrix_right_solve; open_all; foot. Qed.

Lemma vector_abs_sum_foot : forall (O : ops) (F : rops) (M : mags O F) (v : vec O) (init : F),
  touches (vector_abs_sum M v init) (vcells v) (none).
Proof. unfold vector_abs_sum; open_all; foot. Qed.

Lemma vector_sum_of_squares_foot : forall (O : ops) (F : rops) (M : mags O F) (x : vec O) (init : sum_of_squares_result),
  touches (vector_sum_of_squares M x init) (vcells x) (none).
Proof. unfold vector_sum_of_squares; open_all; foot. Qed.

Lemma matrix_frob_norm_foot : forall (O : ops) (F : rops) (M : mags O F) (A : mat O) (init : F),
  touches (matrix_frob_norm M A init) (mcells A) (none).
Proof. unfold matrix_frob_norm; open_all; foot. Qed.

Lemma matrix_inf_norm_foot : forall (O : ops) (F : rops) (M : mags O F) (A : mat O) (init : F),
  touches (matrix_inf_norm M A init) (mcells A) (none).
Proof. unfold matrix_inf_norm; open_all; foot. Qed.

Lemma matrix_one_norm_foot : forall (O : ops) (F : rops) (M : mags O F) (A : mat O) (init : F),
  touches (matrix_one_norm M A init) (mcells A) (none).
Proof. unfold matrix_one_norm; open_all; foot. Qed.

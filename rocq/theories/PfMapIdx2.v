(** Proofs of C92: every inline algorithm on views whose offsets are computed in the index type.
    The statements are generated from those of C84 (PfCounter2.v). *)
From Coq Require Import List Arith NArith ZArith Bool Lia.
From Verif Require Import Mem Scalar View Spec Idx Ints SpecI SpecI2 SpecCt Blas1 Blas2 Blas3 Norm Counter PfCounter PfCounter2 MapIdx SpecMi PfMapIdx.
Import ListNotations.
Set Implicit Arguments.

Lemma same_trans : forall T A (p q r : prog T A), same_run p q -> same_run q r -> same_run p r.
Proof. intros T A p q r H1 H2 m. rewrite H1. apply H2. Qed.
Lemma same_for_ : forall T n lo (f g : nat -> prog T unit), (forall i, same_run (f i) (g i)) -> same_run (for_ lo n f) (for_ lo n g).
Proof. intros T n. induction n as [|n IH]; intros lo f g H; simpl; [intros m; auto|]. apply same_bind; auto. Qed.
Lemma same_range : forall T lo hi (f g : nat -> prog T unit), (forall i, same_run (f i) (g i)) -> same_run (for_range lo hi f) (for_range lo hi g).
Proof. intros. unfold for_range. apply same_for_; auto. Qed.
Lemma same_downto : forall T n (f g : nat -> prog T unit), (forall i, same_run (f i) (g i)) -> same_run (for_down n f) (for_down n g).
Proof. intros T n f g H. induction n as [|n IH]; simpl; [intros m; auto|]. apply same_bind; auto. Qed.
Lemma same_fold_ : forall T A n lo (f g : nat -> A -> prog T A) x, (forall i a, same_run (f i a) (g i a)) -> same_run (fold_ lo n f x) (fold_ lo n g x).
Proof. intros T A n. induction n as [|n IH]; intros lo f g x H; simpl; [intros m; auto|]. apply same_bind; auto. Qed.
Lemma same_foldr : forall T A lo hi (f g : nat -> A -> prog T A) x, (forall i a, same_run (f i a) (g i a)) -> same_run (fold_range lo hi f x) (fold_range lo hi g x).
Proof. intros. unfold fold_range. apply same_fold_; auto. Qed.

(** Walk through the two programs; the accesses are equal. *)
Ltac acc := repeat first [rewrite mget_indexed by eassumption | rewrite mset_indexed by eassumption
  | rewrite vget_indexed by eassumption | rewrite vset_indexed by eassumption].
Ltac cg :=
  cbv zeta; unfold tri_mv_loop, trmv_loop, zero_rows, copy_rows, make_real, vacc_add, macc_add, ssq_step, frob_step in *;
  repeat (cbv beta; acc; cbn [indexed_m indexed_v ext0 ext1 vext];
    repeat match goal with
    | |- context [Mat (mbase ?A) (ext0 ?A) (ext1 ?A) (LUser (fun i j => to_address (index_off ?T _ _ _ _ _) (?u i j))) (macc ?A)] => fold (indexed_m T u A)
    | |- context [Vec (vbase ?x) (vext ?x) (fun i => to_address (vindex_off ?T ?l _) (?u i)) (vacc ?x)] => fold (indexed_v T l u x)
    end;
    lazymatch goal with
  | |- same_run (for_range _ _ _) (for_range _ _ _) => apply same_range; intros
  | |- same_run (for_down _ _) (for_down _ _) => apply same_downto; intros
  | |- same_run (fold_range _ _ _ _) (fold_range _ _ _ _) => apply same_foldr; intros
  | |- same_run (bind _ _) (bind _ _) => apply same_bind; [|intros]
  | |- same_run (when _ _) (when _ _) => apply same_when
  | |- same_run (from_index _ _) (from_index _ _) => apply same_from; [reflexivity|intros]
  | |- same_run (match ?t with Lower => _ | Upper => _ end) _ => destruct t
  | |- same_run (if (?a =? ?b)%nat then _ else _) _ => destruct (Nat.eqb_spec a b)
  | |- same_run (if ?c then _ else _) _ => destruct c
  | |- same_run ?p ?q => apply same_refl
  end).

Lemma copy_1_indexed : forall (O : ops) (fuel : nat) (tx ty : ikind) (x y : vec O) (lx : vlayout) (ux : nat -> nat) (ly : vlayout) (uy : nat -> nat),
  vspan fuel tx x -> vspan fuel ty y -> addressable_v tx lx x -> addressable_v ty ly y ->
  same_run (c_copy_1 fuel tx ty (indexed_v tx lx ux x) (indexed_v ty ly uy y)) (copy_1 x y).
Proof. intros; eapply same_trans; [eapply copy_1_same; eauto|]; unfold copy_1; cg. Qed.

Lemma copy_2_indexed : forall (O : ops) (fuel : nat) (tx ty : ikind) (x y : mat O) (ux : nat -> nat -> nat) (uy : nat -> nat -> nat),
  mspan fuel tx x -> mspan fuel ty y -> addressable_m tx x -> addressable_m ty y ->
  same_run (c_copy_2 fuel tx ty (indexed_m tx ux x) (indexed_m ty uy y)) (copy_2 x y).
Proof. intros; eapply same_trans; [eapply copy_2_same; eauto|]; unfold copy_2; cg. Qed.

Lemma swap_1_indexed : forall (O : ops) (fuel : nat) (tx ty : ikind) (x y : vec O) (lx : vlayout) (ux : nat -> nat) (ly : vlayout) (uy : nat -> nat),
  vspan fuel tx x -> vspan fuel ty y -> addressable_v tx lx x -> addressable_v ty ly y ->
  same_run (c_swap_1 fuel tx ty (indexed_v tx lx ux x) (indexed_v ty ly uy y)) (swap_1 x y).
Proof. intros; eapply same_trans; [eapply swap_1_same; eauto|]; unfold swap_1; cg. Qed.

Lemma swap_2_indexed : forall (O : ops) (fuel : nat) (tx ty : ikind) (x y : mat O) (ux : nat -> nat -> nat) (uy : nat -> nat -> nat),
  mspan fuel tx x -> mspan fuel ty y -> addressable_m tx x -> addressable_m ty y ->
  same_run (c_swap_2 fuel tx ty (indexed_m tx ux x) (indexed_m ty uy y)) (swap_2 x y).
Proof. intros; eapply same_trans; [eapply swap_2_same; eauto|]; unfold swap_2; cg. Qed.

Lemma scale_1_indexed : forall (O : ops) (fuel : nat) (tx : ikind) (alpha : O) (x : vec O) (lx : vlayout) (ux : nat -> nat),
  vspan fuel tx x -> addressable_v tx lx x ->
  same_run (c_scale_1 fuel tx alpha (indexed_v tx lx ux x)) (scale_1 alpha x).
Proof. intros; eapply same_trans; [eapply scale_1_same; eauto|]; unfold scale_1; cg. Qed.

Lemma scale_2_indexed : forall (O : ops) (fuel : nat) (tA : ikind) (alpha : O) (A : mat O) (uA : nat -> nat -> nat),
  mspan fuel tA A -> addressable_m tA A ->
  same_run (c_scale_2 fuel tA alpha (indexed_m tA uA A)) (scale_2 alpha A).
Proof. intros; eapply same_trans; [eapply scale_2_same; eauto|]; unfold scale_2; cg. Qed.

Lemma add_1_indexed : forall (O : ops) (fuel : nat) (tx ty tz : ikind) (x y z : vec O) (lx : vlayout) (ux : nat -> nat) (ly : vlayout) (uy : nat -> nat) (lz : vlayout) (uz : nat -> nat),
  vspan fuel tx x -> vspan fuel ty y -> vspan fuel tz z -> addressable_v tx lx x -> addressable_v ty ly y -> addressable_v tz lz z ->
  same_run (c_add_1 fuel tx ty tz (indexed_v tx lx ux x) (indexed_v ty ly uy y) (indexed_v tz lz uz z)) (add_1 x y z).
Proof. intros; eapply same_trans; [eapply add_1_same; eauto|]; unfold add_1; cg. Qed.

Lemma add_2_indexed : forall (O : ops) (fuel : nat) (tx ty tz : ikind) (x y z : mat O) (ux : nat -> nat -> nat) (uy : nat -> nat -> nat) (uz : nat -> nat -> nat),
  mspan fuel tx x -> mspan fuel ty y -> mspan fuel tz z -> addressable_m tx x -> addressable_m ty y -> addressable_m tz z ->
  same_run (c_add_2 fuel tx ty tz (indexed_m tx ux x) (indexed_m ty uy y) (indexed_m tz uz z)) (add_2 x y z).
Proof. intros; eapply same_trans; [eapply add_2_same; eauto|]; unfold add_2; cg. Qed.

Lemma dot_indexed : forall (O : ops) (fuel : nat) (tv1 tv2 : ikind) (v1 v2 : vec O) (init : O) (lv1 : vlayout) (uv1 : nat -> nat) (lv2 : vlayout) (uv2 : nat -> nat),
  vspan fuel tv1 v1 -> vspan fuel tv2 v2 -> addressable_v tv1 lv1 v1 -> addressable_v tv2 lv2 v2 ->
  same_run (c_dot fuel tv1 tv2 (indexed_v tv1 lv1 uv1 v1) (indexed_v tv2 lv2 uv2 v2) init) (dot v1 v2 init).
Proof. intros; eapply same_trans; [eapply dot_same; eauto|]; unfold dot; cg. Qed.

Lemma vector_idx_abs_max_indexed : forall (O : ops) (M : Type) (fuel : nat) (tv : ikind) (mag : O -> M) (ltb : M -> M -> bool) (size_max : N) (v : vec O) (lv : vlayout) (uv : nat -> nat),
  vspan fuel tv v -> addressable_v tv lv v ->
  same_run (c_vector_idx_abs_max fuel tv mag ltb size_max (indexed_v tv lv uv v)) (vector_idx_abs_max mag ltb size_max v).
Proof. intros; eapply same_trans; [eapply vector_idx_abs_max_same; eauto|]; unfold vector_idx_abs_max; cg. Qed.

Lemma apply_givens_rotation_indexed : forall (O : ops) (fuel : nat) (tx ty : ikind) (x y : vec O) (c s : O) (lx : vlayout) (ux : nat -> nat) (ly : vlayout) (uy : nat -> nat),
  vspan fuel tx x -> vspan fuel ty y -> addressable_v tx lx x -> addressable_v ty ly y ->
  same_run (c_apply_givens_rotation fuel tx ty (indexed_v tx lx ux x) (indexed_v ty ly uy y) c s) (apply_givens_rotation x y c s).
Proof. intros; eapply same_trans; [eapply apply_givens_rotation_same; eauto|]; unfold apply_givens_rotation; cg. Qed.

Lemma apply_givens_rotation_c_indexed : forall (O : ops) (fuel : nat) (tx ty : ikind) (x y : vec O) (c s : O) (lx : vlayout) (ux : nat -> nat) (ly : vlayout) (uy : nat -> nat),
  vspan fuel tx x -> vspan fuel ty y -> addressable_v tx lx x -> addressable_v ty ly y ->
  same_run (c_apply_givens_rotation_c fuel tx ty (indexed_v tx lx ux x) (indexed_v ty ly uy y) c s) (apply_givens_rotation_c x y c s).
Proof. intros; eapply same_trans; [eapply apply_givens_rotation_c_same; eauto|]; unfold apply_givens_rotation_c; cg. Qed.

Lemma matrix_vector_product_indexed : forall (O : ops) (fuel : nat) (tA tx ty : ikind) (A : mat O) (x y : vec O) (uA : nat -> nat -> nat) (lx : vlayout) (ux : nat -> nat) (ly : vlayout) (uy : nat -> nat),
  mspan fuel tA A -> vspan fuel tx x -> vspan fuel ty y -> addressable_m tA A -> addressable_v tx lx x -> addressable_v ty ly y ->
  same_run (c_matrix_vector_product fuel tA tx ty (indexed_m tA uA A) (indexed_v tx lx ux x) (indexed_v ty ly uy y)) (matrix_vector_product A x y).
Proof. intros; eapply same_trans; [eapply matrix_vector_product_same; eauto|]; unfold matrix_vector_product; cg. Qed.

Lemma matrix_vector_product_upd_indexed : forall (O : ops) (fuel : nat) (tA tx ty tz : ikind) (A : mat O) (x y z : vec O) (uA : nat -> nat -> nat) (lx : vlayout) (ux : nat -> nat) (ly : vlayout) (uy : nat -> nat) (lz : vlayout) (uz : nat -> nat),
  mspan fuel tA A -> vspan fuel tx x -> vspan fuel ty y -> vspan fuel tz z -> addressable_m tA A -> addressable_v tx lx x -> addressable_v ty ly y -> addressable_v tz lz z ->
  same_run (c_matrix_vector_product_upd fuel tA tx ty tz (indexed_m tA uA A) (indexed_v tx lx ux x) (indexed_v ty ly uy y) (indexed_v tz lz uz z)) (matrix_vector_product_upd A x y z).
Proof. intros; eapply same_trans; [eapply matrix_vector_product_upd_same; eauto|]; unfold matrix_vector_product_upd; cg. Qed.

Lemma symmetric_matrix_vector_product_indexed : forall (O : ops) (fuel : nat) (tA tx ty : ikind) (A : mat O) (t : triangle) (x y : vec O) (uA : nat -> nat -> nat) (lx : vlayout) (ux : nat -> nat) (ly : vlayout) (uy : nat -> nat),
  mspan fuel tA A -> vspan fuel tx x -> vspan fuel ty y -> addressable_m tA A -> addressable_v tx lx x -> addressable_v ty ly y ->
  same_run (c_symmetric_matrix_vector_product fuel tA tx ty (indexed_m tA uA A) t (indexed_v tx lx ux x) (indexed_v ty ly uy y)) (symmetric_matrix_vector_product A t x y).
Proof. intros; eapply same_trans; [eapply symmetric_matrix_vector_product_same; eauto|]; unfold symmetric_matrix_vector_product; cg. Qed.

Lemma symmetric_matrix_vector_product_upd_indexed : forall (O : ops) (fuel : nat) (tA tx ty tz : ikind) (A : mat O) (t : triangle) (x y z : vec O) (uA : nat -> nat -> nat) (lx : vlayout) (ux : nat -> nat) (ly : vlayout) (uy : nat -> nat) (lz : vlayout) (uz : nat -> nat),
  mspan fuel tA A -> vspan fuel tx x -> vspan fuel ty y -> vspan fuel tz z -> addressable_m tA A -> addressable_v tx lx x -> addressable_v ty ly y -> addressable_v tz lz z ->
  same_run (c_symmetric_matrix_vector_product_upd fuel tA tx ty tz (indexed_m tA uA A) t (indexed_v tx lx ux x) (indexed_v ty ly uy y) (indexed_v tz lz uz z)) (symmetric_matrix_vector_product_upd A t x y z).
Proof. intros; eapply same_trans; [eapply symmetric_matrix_vector_product_upd_same; eauto|]; unfold symmetric_matrix_vector_product_upd; cg. Qed.

Lemma hermitian_matrix_vector_product_indexed : forall (O : ops) (fuel : nat) (tA tx ty : ikind) (A : mat O) (t : triangle) (x y : vec O) (uA : nat -> nat -> nat) (lx : vlayout) (ux : nat -> nat) (ly : vlayout) (uy : nat -> nat),
  mspan fuel tA A -> vspan fuel tx x -> vspan fuel ty y -> addressable_m tA A -> addressable_v tx lx x -> addressable_v ty ly y ->
  same_run (c_hermitian_matrix_vector_product fuel tA tx ty (indexed_m tA uA A) t (indexed_v tx lx ux x) (indexed_v ty ly uy y)) (hermitian_matrix_vector_product A t x y).
Proof. intros; eapply same_trans; [eapply hermitian_matrix_vector_product_same; eauto|]; unfold hermitian_matrix_vector_product; cg. Qed.

Lemma hermitian_matrix_vector_product_upd_indexed : forall (O : ops) (fuel : nat) (tA tx ty tz : ikind) (A : mat O) (t : triangle) (x y z : vec O) (uA : nat -> nat -> nat) (lx : vlayout) (ux : nat -> nat) (ly : vlayout) (uy : nat -> nat) (lz : vlayout) (uz : nat -> nat),
  mspan fuel tA A -> vspan fuel tx x -> vspan fuel ty y -> vspan fuel tz z -> addressable_m tA A -> addressable_v tx lx x -> addressable_v ty ly y -> addressable_v tz lz z ->
  same_run (c_hermitian_matrix_vector_product_upd fuel tA tx ty tz (indexed_m tA uA A) t (indexed_v tx lx ux x) (indexed_v ty ly uy y) (indexed_v tz lz uz z)) (hermitian_matrix_vector_product_upd A t x y z).
Proof. intros; eapply same_trans; [eapply hermitian_matrix_vector_product_upd_same; eauto|]; unfold hermitian_matrix_vector_product_upd; cg. Qed.

Lemma triangular_matrix_vector_product_indexed : forall (O : ops) (fuel : nat) (tA tx ty : ikind) (A : mat O) (t : triangle) (d : diagonal) (x y : vec O) (uA : nat -> nat -> nat) (lx : vlayout) (ux : nat -> nat) (ly : vlayout) (uy : nat -> nat),
  mspan fuel tA A -> vspan fuel tx x -> vspan fuel ty y -> addressable_m tA A -> addressable_v tx lx x -> addressable_v ty ly y ->
  same_run (c_triangular_matrix_vector_product fuel tA tx ty (indexed_m tA uA A) t d (indexed_v tx lx ux x) (indexed_v ty ly uy y)) (triangular_matrix_vector_product A t d x y).
Proof. intros; eapply same_trans; [eapply triangular_matrix_vector_product_same; eauto|]; unfold triangular_matrix_vector_product; cg. Qed.

Lemma triangular_matrix_vector_product_upd_indexed : forall (O : ops) (fuel : nat) (tA tx ty tz : ikind) (A : mat O) (t : triangle) (d : diagonal) (x y z : vec O) (uA : nat -> nat -> nat) (lx : vlayout) (ux : nat -> nat) (ly : vlayout) (uy : nat -> nat) (lz : vlayout) (uz : nat -> nat),
  mspan fuel tA A -> vspan fuel tx x -> vspan fuel ty y -> vspan fuel tz z -> addressable_m tA A -> addressable_v tx lx x -> addressable_v ty ly y -> addressable_v tz lz z ->
  same_run (c_triangular_matrix_vector_product_upd fuel tA tx ty tz (indexed_m tA uA A) t d (indexed_v tx lx ux x) (indexed_v ty ly uy y) (indexed_v tz lz uz z)) (triangular_matrix_vector_product_upd A t d x y z).
Proof. intros; eapply same_trans; [eapply triangular_matrix_vector_product_upd_same; eauto|]; unfold triangular_matrix_vector_product_upd; cg. Qed.

Lemma triangular_matrix_vector_product_inplace_indexed : forall (O : ops) (fuel : nat) (tA ty : ikind) (A : mat O) (t : triangle) (d : diagonal) (y : vec O) (uA : nat -> nat -> nat) (ly : vlayout) (uy : nat -> nat),
  mspan fuel tA A -> vspan fuel ty y -> addressable_m tA A -> addressable_v ty ly y ->
  same_run (c_triangular_matrix_vector_product_inplace fuel tA ty (indexed_m tA uA A) t d (indexed_v ty ly uy y)) (triangular_matrix_vector_product_inplace A t d y).
Proof. intros; eapply same_trans; [eapply triangular_matrix_vector_product_inplace_same; eauto|]; unfold triangular_matrix_vector_product_inplace; cg. Qed.

Lemma trsv_upper_indexed : forall (O : ops) (fuel : nat) (tA tB tX : ikind) (z : ity) (divide : O -> O -> O) (A : mat O) (d : diagonal) (B X : vec O) (uA : nat -> nat -> nat) (lB : vlayout) (uB : nat -> nat) (lX : vlayout) (uX : nat -> nat),
  kind_of z = common_types tA [tB; tX] -> mspan fuel tA A -> vspan fuel tB B -> vspan fuel tX X -> addressable_m tA A -> addressable_v tB lB B -> addressable_v tX lX X ->
  same_run (c_trsv_upper fuel z divide (indexed_m tA uA A) d (indexed_v tB lB uB B) (indexed_v tX lX uX X)) (trsv_upper z divide A d B X).
Proof. intros; eapply same_trans; [eapply trsv_upper_same; eauto|]; unfold trsv_upper; cg. Qed.

Lemma trsv_lower_indexed : forall (O : ops) (fuel : nat) (tA tB tX : ikind) (z : ity) (divide : O -> O -> O) (A : mat O) (d : diagonal) (B X : vec O) (uA : nat -> nat -> nat) (lB : vlayout) (uB : nat -> nat) (lX : vlayout) (uX : nat -> nat),
  kind_of z = common_types tA [tB; tX] -> mspan fuel tA A -> vspan fuel tB B -> vspan fuel tX X -> addressable_m tA A -> addressable_v tB lB B -> addressable_v tX lX X ->
  same_run (c_trsv_lower fuel z divide (indexed_m tA uA A) d (indexed_v tB lB uB B) (indexed_v tX lX uX X)) (trsv_lower divide A d B X).
Proof. intros; eapply same_trans; [eapply trsv_lower_same; eauto|]; unfold trsv_lower; cg. Qed.

Lemma matrix_rank_1_update_indexed : forall (O : ops) (fuel : nat) (tx ty tA : ikind) (x y : vec O) (A : mat O) (lx : vlayout) (ux : nat -> nat) (ly : vlayout) (uy : nat -> nat) (uA : nat -> nat -> nat),
  vspan fuel tx x -> vspan fuel ty y -> mspan fuel tA A -> addressable_v tx lx x -> addressable_v ty ly y -> addressable_m tA A ->
  same_run (c_matrix_rank_1_update fuel tx ty tA (indexed_v tx lx ux x) (indexed_v ty ly uy y) (indexed_m tA uA A)) (matrix_rank_1_update x y A).
Proof. intros; eapply same_trans; [eapply matrix_rank_1_update_same; eauto|]; unfold matrix_rank_1_update; cg. Qed.

Lemma symmetric_matrix_rank_1_update_alpha_indexed : forall (O : ops) (fuel : nat) (tx tA : ikind) (alpha : O) (x : vec O) (A : mat O) (t : triangle) (lx : vlayout) (ux : nat -> nat) (uA : nat -> nat -> nat),
  vspan fuel tx x -> mspan fuel tA A -> addressable_v tx lx x -> addressable_m tA A ->
  same_run (c_symmetric_matrix_rank_1_update_alpha fuel tx tA alpha (indexed_v tx lx ux x) (indexed_m tA uA A) t) (symmetric_matrix_rank_1_update_alpha alpha x A t).
Proof. intros; eapply same_trans; [eapply symmetric_matrix_rank_1_update_alpha_same; eauto|]; unfold symmetric_matrix_rank_1_update_alpha; cg. Qed.

Lemma symmetric_matrix_rank_1_update_indexed : forall (O : ops) (fuel : nat) (tx tA : ikind) (x : vec O) (A : mat O) (t : triangle) (lx : vlayout) (ux : nat -> nat) (uA : nat -> nat -> nat),
  vspan fuel tx x -> mspan fuel tA A -> addressable_v tx lx x -> addressable_m tA A ->
  same_run (c_symmetric_matrix_rank_1_update fuel tx tA (indexed_v tx lx ux x) (indexed_m tA uA A) t) (symmetric_matrix_rank_1_update x A t).
Proof. intros; eapply same_trans; [eapply symmetric_matrix_rank_1_update_same; eauto|]; unfold symmetric_matrix_rank_1_update; cg. Qed.

Lemma hermitian_matrix_rank_1_update_alpha_indexed : forall (O : ops) (fuel : nat) (tx tA : ikind) (alpha : O) (x : vec O) (A : mat O) (t : triangle) (lx : vlayout) (ux : nat -> nat) (uA : nat -> nat -> nat),
  vspan fuel tx x -> mspan fuel tA A -> addressable_v tx lx x -> addressable_m tA A ->
  same_run (c_hermitian_matrix_rank_1_update_alpha fuel tx tA alpha (indexed_v tx lx ux x) (indexed_m tA uA A) t) (hermitian_matrix_rank_1_update_alpha alpha x A t).
Proof. intros; eapply same_trans; [eapply hermitian_matrix_rank_1_update_alpha_same; eauto|]; unfold hermitian_matrix_rank_1_update_alpha; cg. Qed.

Lemma hermitian_matrix_rank_1_update_indexed : forall (O : ops) (fuel : nat) (tx tA : ikind) (x : vec O) (A : mat O) (t : triangle) (lx : vlayout) (ux : nat -> nat) (uA : nat -> nat -> nat),
  vspan fuel tx x -> mspan fuel tA A -> addressable_v tx lx x -> addressable_m tA A ->
  same_run (c_hermitian_matrix_rank_1_update fuel tx tA (indexed_v tx lx ux x) (indexed_m tA uA A) t) (hermitian_matrix_rank_1_update x A t).
Proof. intros; eapply same_trans; [eapply hermitian_matrix_rank_1_update_same; eauto|]; unfold hermitian_matrix_rank_1_update; cg. Qed.

Lemma symmetric_matrix_rank_2_update_indexed : forall (O : ops) (fuel : nat) (tx ty tA : ikind) (x y : vec O) (A : mat O) (t : triangle) (lx : vlayout) (ux : nat -> nat) (ly : vlayout) (uy : nat -> nat) (uA : nat -> nat -> nat),
  vspan fuel tx x -> vspan fuel ty y -> mspan fuel tA A -> addressable_v tx lx x -> addressable_v ty ly y -> addressable_m tA A ->
  same_run (c_symmetric_matrix_rank_2_update fuel tx ty tA (indexed_v tx lx ux x) (indexed_v ty ly uy y) (indexed_m tA uA A) t) (symmetric_matrix_rank_2_update x y A t).
Proof. intros; eapply same_trans; [eapply symmetric_matrix_rank_2_update_same; eauto|]; unfold symmetric_matrix_rank_2_update; cg. Qed.

Lemma hermitian_matrix_rank_2_update_indexed : forall (O : ops) (fuel : nat) (tx ty tA : ikind) (x y : vec O) (A : mat O) (t : triangle) (lx : vlayout) (ux : nat -> nat) (ly : vlayout) (uy : nat -> nat) (uA : nat -> nat -> nat),
  vspan fuel tx x -> vspan fuel ty y -> mspan fuel tA A -> addressable_v tx lx x -> addressable_v ty ly y -> addressable_m tA A ->
  same_run (c_hermitian_matrix_rank_2_update fuel tx ty tA (indexed_v tx lx ux x) (indexed_v ty ly uy y) (indexed_m tA uA A) t) (hermitian_matrix_rank_2_update x y A t).
Proof. intros; eapply same_trans; [eapply hermitian_matrix_rank_2_update_same; eauto|]; unfold hermitian_matrix_rank_2_update; cg. Qed.

Lemma matrix_product_indexed : forall (O : ops) (fuel : nat) (tA tB tC : ikind) (A B C : mat O) (uA : nat -> nat -> nat) (uB : nat -> nat -> nat) (uC : nat -> nat -> nat),
  mspan fuel tA A -> mspan fuel tB B -> mspan fuel tC C -> addressable_m tA A -> addressable_m tB B -> addressable_m tC C ->
  same_run (c_matrix_product fuel tA tB tC (indexed_m tA uA A) (indexed_m tB uB B) (indexed_m tC uC C)) (matrix_product A B C).
Proof. intros; eapply same_trans; [eapply matrix_product_same; eauto|]; unfold matrix_product; cg. Qed.

Lemma matrix_product_upd_indexed : forall (O : ops) (fuel : nat) (tA tB tE tC : ikind) (A B E C : mat O) (uA : nat -> nat -> nat) (uB : nat -> nat -> nat) (uE : nat -> nat -> nat) (uC : nat -> nat -> nat),
  mspan fuel tA A -> mspan fuel tB B -> mspan fuel tE E -> mspan fuel tC C -> addressable_m tA A -> addressable_m tB B -> addressable_m tE E -> addressable_m tC C ->
  same_run (c_matrix_product_upd fuel tA tB tE tC (indexed_m tA uA A) (indexed_m tB uB B) (indexed_m tE uE E) (indexed_m tC uC C)) (matrix_product_upd A B E C).
Proof. intros; eapply same_trans; [eapply matrix_product_upd_same; eauto|]; unfold matrix_product_upd; cg. Qed.

Lemma triangular_matrix_product_left_indexed : forall (O : ops) (fuel : nat) (tA tB tC : ikind) (z : ity) (A : mat O) (t : triangle) (d : diagonal) (B C : mat O) (uA : nat -> nat -> nat) (uB : nat -> nat -> nat) (uC : nat -> nat -> nat),
  kind_of z = common_types tA [tB; tC] -> mspan fuel tA A -> mspan fuel tB B -> mspan fuel tC C -> in_ptrdiff C -> addressable_m tA A -> addressable_m tB B -> addressable_m tC C ->
  same_run (c_triangular_matrix_product_left fuel tA tB tC z (indexed_m tA uA A) t d (indexed_m tB uB B) (indexed_m tC uC C)) (triangular_matrix_product_left z A t d B C).
Proof. intros; eapply same_trans; [eapply triangular_matrix_product_left_same; eauto|]; unfold triangular_matrix_product_left; cg. Qed.

Lemma triangular_matrix_product_right_indexed : forall (O : ops) (fuel : nat) (tA tB tC : ikind) (z : ity) (B A : mat O) (t : triangle) (d : diagonal) (C : mat O) (uA : nat -> nat -> nat) (uB : nat -> nat -> nat) (uC : nat -> nat -> nat),
  kind_of z = common_types tA [tB; tC] -> mspan fuel tA A -> mspan fuel tB B -> mspan fuel tC C -> in_ptrdiff C -> addressable_m tA A -> addressable_m tB B -> addressable_m tC C ->
  same_run (c_triangular_matrix_product_right fuel tB tA tC z (indexed_m tB uB B) (indexed_m tA uA A) t d (indexed_m tC uC C)) (triangular_matrix_product_right z B A t d C).
Proof. intros; eapply same_trans; [eapply triangular_matrix_product_right_same; eauto|]; unfold triangular_matrix_product_right; cg. Qed.

Lemma triangular_matrix_left_product_indexed : forall (O : ops) (fuel : nat) (tA tC : ikind) (A : mat O) (t : triangle) (d : diagonal) (C : mat O) (uA : nat -> nat -> nat) (uC : nat -> nat -> nat),
  mspan fuel tA A -> mspan fuel tC C -> addressable_m tA A -> addressable_m tC C ->
  same_run (c_triangular_matrix_left_product fuel tA tC (indexed_m tA uA A) t d (indexed_m tC uC C)) (triangular_matrix_left_product A t d C).
Proof. intros; eapply same_trans; [eapply triangular_matrix_left_product_same; eauto|]; unfold triangular_matrix_left_product; cg. Qed.

Lemma triangular_matrix_right_product_indexed : forall (O : ops) (fuel : nat) (tA tC : ikind) (A : mat O) (t : triangle) (d : diagonal) (C : mat O) (uA : nat -> nat -> nat) (uC : nat -> nat -> nat),
  mspan fuel tA A -> mspan fuel tC C -> addressable_m tA A -> addressable_m tC C ->
  same_run (c_triangular_matrix_right_product fuel tA tC (indexed_m tA uA A) t d (indexed_m tC uC C)) (triangular_matrix_right_product A t d C).
Proof. intros; eapply same_trans; [eapply triangular_matrix_right_product_same; eauto|]; unfold triangular_matrix_right_product; cg. Qed.

Lemma symmetric_matrix_product_left_indexed : forall (O : ops) (fuel : nat) (tA tB tC : ikind) (A : mat O) (t : triangle) (B C : mat O) (uA : nat -> nat -> nat) (uB : nat -> nat -> nat) (uC : nat -> nat -> nat),
  mspan fuel tA A -> mspan fuel tB B -> mspan fuel tC C -> addressable_m tA A -> addressable_m tB B -> addressable_m tC C ->
  same_run (c_symmetric_matrix_product_left fuel tA tB tC (indexed_m tA uA A) t (indexed_m tB uB B) (indexed_m tC uC C)) (symmetric_matrix_product_left A t B C).
Proof. intros; eapply same_trans; [eapply symmetric_matrix_product_left_same; eauto|]; unfold symmetric_matrix_product_left; cg. Qed.

Lemma symmetric_matrix_product_right_indexed : forall (O : ops) (fuel : nat) (tB tA tC : ikind) (B A : mat O) (t : triangle) (C : mat O) (uB : nat -> nat -> nat) (uA : nat -> nat -> nat) (uC : nat -> nat -> nat),
  mspan fuel tB B -> mspan fuel tA A -> mspan fuel tC C -> addressable_m tB B -> addressable_m tA A -> addressable_m tC C ->
  same_run (c_symmetric_matrix_product_right fuel tB tA tC (indexed_m tB uB B) (indexed_m tA uA A) t (indexed_m tC uC C)) (symmetric_matrix_product_right B A t C).
Proof. intros; eapply same_trans; [eapply symmetric_matrix_product_right_same; eauto|]; unfold symmetric_matrix_product_right; cg. Qed.

Lemma hermitian_matrix_product_left_indexed : forall (O : ops) (fuel : nat) (tA tB tC : ikind) (A : mat O) (t : triangle) (B C : mat O) (uA : nat -> nat -> nat) (uB : nat -> nat -> nat) (uC : nat -> nat -> nat),
  mspan fuel tA A -> mspan fuel tB B -> mspan fuel tC C -> addressable_m tA A -> addressable_m tB B -> addressable_m tC C ->
  same_run (c_hermitian_matrix_product_left fuel tA tB tC (indexed_m tA uA A) t (indexed_m tB uB B) (indexed_m tC uC C)) (hermitian_matrix_product_left A t B C).
Proof. intros; eapply same_trans; [eapply hermitian_matrix_product_left_same; eauto|]; unfold hermitian_matrix_product_left; cg. Qed.

Lemma hermitian_matrix_product_right_indexed : forall (O : ops) (fuel : nat) (tB tA tC : ikind) (B A : mat O) (t : triangle) (C : mat O) (uB : nat -> nat -> nat) (uA : nat -> nat -> nat) (uC : nat -> nat -> nat),
  mspan fuel tB B -> mspan fuel tA A -> mspan fuel tC C -> addressable_m tB B -> addressable_m tA A -> addressable_m tC C ->
  same_run (c_hermitian_matrix_product_right fuel tB tA tC (indexed_m tB uB B) (indexed_m tA uA A) t (indexed_m tC uC C)) (hermitian_matrix_product_right B A t C).
Proof. intros; eapply same_trans; [eapply hermitian_matrix_product_right_same; eauto|]; unfold hermitian_matrix_product_right; cg. Qed.

Lemma symmetric_matrix_rank_k_update_alpha_indexed : forall (O : ops) (fuel : nat) (tA tC : ikind) (alpha : O) (A C : mat O) (t : triangle) (uA : nat -> nat -> nat) (uC : nat -> nat -> nat),
  mspan fuel tA A -> mspan fuel tC C -> addressable_m tA A -> addressable_m tC C ->
  same_run (c_symmetric_matrix_rank_k_update_alpha fuel tA tC alpha (indexed_m tA uA A) (indexed_m tC uC C) t) (symmetric_matrix_rank_k_update_alpha alpha A C t).
Proof. intros; eapply same_trans; [eapply symmetric_matrix_rank_k_update_alpha_same; eauto|]; unfold symmetric_matrix_rank_k_update_alpha; cg. Qed.

Lemma symmetric_matrix_rank_k_update_indexed : forall (O : ops) (fuel : nat) (tA tC : ikind) (A C : mat O) (t : triangle) (uA : nat -> nat -> nat) (uC : nat -> nat -> nat),
  mspan fuel tA A -> mspan fuel tC C -> addressable_m tA A -> addressable_m tC C ->
  same_run (c_symmetric_matrix_rank_k_update fuel tA tC (indexed_m tA uA A) (indexed_m tC uC C) t) (symmetric_matrix_rank_k_update A C t).
Proof. intros; eapply same_trans; [eapply symmetric_matrix_rank_k_update_same; eauto|]; unfold symmetric_matrix_rank_k_update; cg. Qed.

Lemma hermitian_matrix_rank_k_update_alpha_indexed : forall (O : ops) (fuel : nat) (tA tC : ikind) (alpha : O) (A C : mat O) (t : triangle) (uA : nat -> nat -> nat) (uC : nat -> nat -> nat),
  mspan fuel tA A -> mspan fuel tC C -> addressable_m tA A -> addressable_m tC C ->
  same_run (c_hermitian_matrix_rank_k_update_alpha fuel tA tC alpha (indexed_m tA uA A) (indexed_m tC uC C) t) (hermitian_matrix_rank_k_update_alpha alpha A C t).
Proof. intros; eapply same_trans; [eapply hermitian_matrix_rank_k_update_alpha_same; eauto|]; unfold hermitian_matrix_rank_k_update_alpha; cg. Qed.

Lemma hermitian_matrix_rank_k_update_indexed : forall (O : ops) (fuel : nat) (tA tC : ikind) (A C : mat O) (t : triangle) (uA : nat -> nat -> nat) (uC : nat -> nat -> nat),
  mspan fuel tA A -> mspan fuel tC C -> addressable_m tA A -> addressable_m tC C ->
  same_run (c_hermitian_matrix_rank_k_update fuel tA tC (indexed_m tA uA A) (indexed_m tC uC C) t) (hermitian_matrix_rank_k_update A C t).
Proof. intros; eapply same_trans; [eapply hermitian_matrix_rank_k_update_same; eauto|]; unfold hermitian_matrix_rank_k_update; cg. Qed.

Lemma symmetric_matrix_rank_2k_update_indexed : forall (O : ops) (fuel : nat) (tA tB tC : ikind) (A B C : mat O) (t : triangle) (uA : nat -> nat -> nat) (uB : nat -> nat -> nat) (uC : nat -> nat -> nat),
  mspan fuel tA A -> mspan fuel tB B -> mspan fuel tC C -> addressable_m tA A -> addressable_m tB B -> addressable_m tC C ->
  same_run (c_symmetric_matrix_rank_2k_update fuel tA tB tC (indexed_m tA uA A) (indexed_m tB uB B) (indexed_m tC uC C) t) (symmetric_matrix_rank_2k_update A B C t).
Proof. intros; eapply same_trans; [eapply symmetric_matrix_rank_2k_update_same; eauto|]; unfold symmetric_matrix_rank_2k_update; cg. Qed.

Lemma hermitian_matrix_rank_2k_update_indexed : forall (O : ops) (fuel : nat) (tA tB tC : ikind) (A B C : mat O) (t : triangle) (uA : nat -> nat -> nat) (uB : nat -> nat -> nat) (uC : nat -> nat -> nat),
  mspan fuel tA A -> mspan fuel tB B -> mspan fuel tC C -> addressable_m tA A -> addressable_m tB B -> addressable_m tC C ->
  same_run (c_hermitian_matrix_rank_2k_update fuel tA tB tC (indexed_m tA uA A) (indexed_m tB uB B) (indexed_m tC uC C) t) (hermitian_matrix_rank_2k_update A B C t).
Proof. intros; eapply same_trans; [eapply hermitian_matrix_rank_2k_update_same; eauto|]; unfold hermitian_matrix_rank_2k_update; cg. Qed.

Lemma trsm_upper_left_indexed : forall (O : ops) (fuel : nat) (tA tB tX : ikind) (z : ity) (A : mat O) (d : diagonal) (B X : mat O) (uA : nat -> nat -> nat) (uB : nat -> nat -> nat) (uX : nat -> nat -> nat),
  kind_of z = common_types tA [tB; tX] -> mspan fuel tA A -> mspan fuel tB B -> mspan fuel tX X -> addressable_m tA A -> addressable_m tB B -> addressable_m tX X ->
  same_run (c_trsm_upper_left fuel z (indexed_m tA uA A) d (indexed_m tB uB B) (indexed_m tX uX X)) (trsm_upper_left z A d B X).
Proof. intros; eapply same_trans; [eapply trsm_upper_left_same; eauto|]; unfold trsm_upper_left; cg. Qed.

Lemma trsm_lower_left_indexed : forall (O : ops) (fuel : nat) (tA tB tX : ikind) (z : ity) (A : mat O) (d : diagonal) (B X : mat O) (uA : nat -> nat -> nat) (uB : nat -> nat -> nat) (uX : nat -> nat -> nat),
  kind_of z = common_types tA [tB; tX] -> mspan fuel tA A -> mspan fuel tB B -> mspan fuel tX X -> addressable_m tA A -> addressable_m tB B -> addressable_m tX X ->
  same_run (c_trsm_lower_left fuel z (indexed_m tA uA A) d (indexed_m tB uB B) (indexed_m tX uX X)) (trsm_lower_left A d B X).
Proof. intros; eapply same_trans; [eapply trsm_lower_left_same; eauto|]; unfold trsm_lower_left; cg. Qed.

Lemma trsm_upper_right_indexed : forall (O : ops) (fuel : nat) (tA tB tX : ikind) (z : ity) (A : mat O) (d : diagonal) (B X : mat O) (uA : nat -> nat -> nat) (uB : nat -> nat -> nat) (uX : nat -> nat -> nat),
  kind_of z = common_types tA [tB; tX] -> mspan fuel tA A -> mspan fuel tB B -> mspan fuel tX X -> addressable_m tA A -> addressable_m tB B -> addressable_m tX X ->
  same_run (c_trsm_upper_right fuel z (indexed_m tA uA A) d (indexed_m tB uB B) (indexed_m tX uX X)) (trsm_upper_right A d B X).
Proof. intros; eapply same_trans; [eapply trsm_upper_right_same; eauto|]; unfold trsm_upper_right; cg. Qed.

Lemma trsm_lower_right_indexed : forall (O : ops) (fuel : nat) (tA tB tX : ikind) (z : ity) (A : mat O) (d : diagonal) (B X : mat O) (uA : nat -> nat -> nat) (uB : nat -> nat -> nat) (uX : nat -> nat -> nat),
  kind_of z = common_types tA [tB; tX] -> mspan fuel tA A -> mspan fuel tB B -> mspan fuel tX X -> addressable_m tA A -> addressable_m tB B -> addressable_m tX X ->
  same_run (c_trsm_lower_right fuel z (indexed_m tA uA A) d (indexed_m tB uB B) (indexed_m tX uX X)) (trsm_lower_right z A d B X).
Proof. intros; eapply same_trans; [eapply trsm_lower_right_same; eauto|]; unfold trsm_lower_right; cg. Qed.

Lemma vector_abs_sum_indexed : forall (O : ops) (F : rops) (M : mags O F) (fuel : nat) (tv : ikind) (v : vec O) (init : F) (lv : vlayout) (uv : nat -> nat),
  vspan fuel tv v -> addressable_v tv lv v ->
  same_run (c_vector_abs_sum fuel M tv (indexed_v tv lv uv v) init) (vector_abs_sum M v init).
Proof. intros; eapply same_trans; [eapply vector_abs_sum_same; eauto|]; unfold vector_abs_sum; cg. Qed.

Lemma vector_sum_of_squares_indexed : forall (O : ops) (F : rops) (M : mags O F) (fuel : nat) (tx : ikind) (x : vec O) (init : sum_of_squares_result) (lx : vlayout) (ux : nat -> nat),
  vspan fuel tx x -> addressable_v tx lx x ->
  same_run (c_vector_sum_of_squares fuel M tx (indexed_v tx lx ux x) init) (vector_sum_of_squares M x init).
Proof. intros; eapply same_trans; [eapply vector_sum_of_squares_same; eauto|]; unfold vector_sum_of_squares; cg. Qed.

Lemma matrix_frob_norm_indexed : forall (O : ops) (F : rops) (M : mags O F) (fuel : nat) (tA : ikind) (A : mat O) (init : F) (uA : nat -> nat -> nat),
  mspan fuel tA A -> addressable_m tA A ->
  same_run (c_matrix_frob_norm fuel M tA (indexed_m tA uA A) init) (matrix_frob_norm M A init).
Proof. intros; eapply same_trans; [eapply matrix_frob_norm_same; eauto|]; unfold matrix_frob_norm; cg. Qed.

Lemma matrix_inf_norm_indexed : forall (O : ops) (F : rops) (M : mags O F) (fuel : nat) (tA : ikind) (A : mat O) (init : F) (uA : nat -> nat -> nat),
  mspan fuel tA A -> addressable_m tA A ->
  same_run (c_matrix_inf_norm fuel M tA (indexed_m tA uA A) init) (matrix_inf_norm M A init).
Proof. intros; eapply same_trans; [eapply matrix_inf_norm_same; eauto|]; unfold matrix_inf_norm; cg. Qed.

Lemma matrix_one_norm_indexed : forall (O : ops) (F : rops) (M : mags O F) (fuel : nat) (tA : ikind) (A : mat O) (init : F) (uA : nat -> nat -> nat),
  mspan fuel tA A -> addressable_m tA A ->
  same_run (c_matrix_one_norm fuel M tA (indexed_m tA uA A) init) (matrix_one_norm M A init).
Proof. intros; eapply same_trans; [eapply matrix_one_norm_same; eauto|]; unfold matrix_one_norm; cg. Qed.

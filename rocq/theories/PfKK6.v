(** The Kokkos matrix-vector and matrix-matrix products under every schedule. *)
From Coq Require Import List Arith Lia Bool Relations.
From Verif Require Import Mem Scalar View Spec PfView Idx Wp Loops Sums Blas2 Blas3 PfBlas1 PfBlas2 PfTrmv PfBlas2b PfRank PfBlas3 Par PfPar KK SpecK PfKK PfKK2 PfKK3 PfKK4 PfKK5.
Import ListNotations.
Set Implicit Arguments.
Local Open Scope sc_scope.
Local Open Scope prog_scope.

Section Results.
Context {O : ops}.

Lemma fc_id : forall t (a : nat -> nat -> O) i j, fc_of (fun v => v) t a i j = sym_of t a i j.
Proof. reflexivity. Qed.
Lemma fc_conj_real : forall t n (a : nat -> nat -> O) i j, (forall i, i < n -> re (a i i) = a i i) -> i < n ->
  fc_of conj t a i j = herm_of t a i j.
Proof.
  intros t n a i j H Hi. unfold fc_of, herm_of. destruct (Nat.eqb_spec i j) as [->|]; auto.
  rewrite H by auto. destruct t; simpl; bdec; auto.
Qed.
Lemma fc_el_id : forall t (a : nat -> nat -> O) i j, fc_el (fun v => v) t a i j = sym_of t a i j.
Proof.
  intros t a i j. unfold fc_el, sym_of. destruct (Nat.eqb_spec i j) as [->|]; auto.
  destruct t; simpl; bdec; auto.
Qed.
Lemma fc_el_conj : forall t n (a : nat -> nat -> O) i j, (forall i, i < n -> conj (a i i) = re (a i i)) -> i < n ->
  fc_el conj t a i j = herm_of t a i j.
Proof.
  intros t n a i j H Hi. unfold fc_el, herm_of. destruct (Nat.eqb_spec i j) as [->|]; auto.
Qed.
Lemma bigsum_ext : forall n (f g : nat -> O), (forall k, k < n -> f k = g k) -> bigsum n f = bigsum n g.
Proof. intros. apply sum_from_ext. intros; apply H; lia. Qed.

Lemma plain_writable : forall (z : vec O), plain_v z -> vwritable z.
Proof. intros z [Hd Ho]. split; auto. intros i j Hi Hj. unfold vaddr. rewrite !Ho by auto. lia. Qed.


(** * gemv *)
Lemma kk_gemv_upd_actual : forall (m : mem O) A x y z a f g,
  vext x = ext1 A -> vext y = ext0 A -> vext z = ext0 A -> plain_m A -> plain_v x -> plain_v y -> plain_v z ->
  mat_holds m A a -> vec_holds m x f -> vec_holds m y g -> allocated m (vcells z) ->
  disjoint (mcells A) (vcells z) -> disjoint (vcells x) (vcells z) -> disjoint_or_aligned_v y z ->
  par_succeeds (kk_matrix_vector_product_upd A x y z) m (fun m' =>
    vec_holds m' z (fun i => bigsum (ext1 A) (fun j => g i + a i j * f j)) /\ changes_only m m' (vcells z)).
Proof. intros. eapply kk_gemv_upd_vst; eauto. Qed.
Lemma kk_gemv_upd_one_column : forall (m : mem O) A x y z a f g,
  add_laws O -> ext1 A = 1 \/ (forall i, i < ext0 A -> g i = zero) /\ 0 < ext1 A \/ ext0 A = 0 ->
  vext x = ext1 A -> vext y = ext0 A -> vext z = ext0 A -> plain_m A -> plain_v x -> plain_v y -> plain_v z ->
  mat_holds m A a -> vec_holds m x f -> vec_holds m y g -> allocated m (vcells z) ->
  disjoint (mcells A) (vcells z) -> disjoint (vcells x) (vcells z) -> disjoint_or_aligned_v y z ->
  par_same_as (kk_matrix_vector_product_upd A x y z) (matrix_vector_product_upd A x y z) m.
Proof.
  intros m A x y z a f g L Hc. intros. eapply par_same_vst with (z := z) (g := fun i => sum_from (g i) 0 (ext1 A) (fun j => a i j * f j));
  [match goal with H : plain_v z |- _ => apply H end|eapply gemv_upd_ok; eauto using plain_writable|].
  intros Q HQ. eapply kk_gemv_upd_vst; eauto. intros m' [Hv Hch]. apply HQ. split; auto.
  eapply vec_holds_ext; [|exact Hv]. intros i Hi. cbv beta. destruct Hc as [E|[[E _]|E]]; [| |lia].
  - rewrite E. unfold bigsum, sum_from; simpl. rewrite (add_0_l L); auto.
  - rewrite E by lia. unfold bigsum. apply sum_from_ext. intros; apply (add_0_l L).
Qed.
(** What it computes: ext1 A copies of y(i), plus row i of A times x. *)
Lemma kk_gemv_upd_value : forall (m : mem O) A x y z a f g,
  add_laws O ->
  vext x = ext1 A -> vext y = ext0 A -> vext z = ext0 A -> plain_m A -> plain_v x -> plain_v y -> plain_v z ->
  mat_holds m A a -> vec_holds m x f -> vec_holds m y g -> allocated m (vcells z) ->
  disjoint (mcells A) (vcells z) -> disjoint (vcells x) (vcells z) -> disjoint_or_aligned_v y z ->
  par_succeeds (kk_matrix_vector_product_upd A x y z) m (fun m' =>
    vec_holds m' z (fun i => bigsum (ext1 A) (fun _ => g i) + bigsum (ext1 A) (fun j => a i j * f j)) /\
    changes_only m m' (vcells z)).
Proof.
  intros m A x y z a f g L. intros. eapply kk_gemv_upd_vst; eauto. intros m' [Hv Hch]. split; auto.
  eapply vec_holds_ext; [|exact Hv]. intros i Hi. cbv beta. unfold bigsum. apply (sum_add L).
Qed.
(** * symv, hemv *)
Lemma kk_symv_ok : forall (m : mem O) A t x y a f,
  add_laws O \/ t = Lower ->
  ext0 A = ext1 A -> vext x = ext1 A -> vext y = ext0 A -> plain_m A -> plain_v x -> plain_v y ->
  mat_holds_on m A (in_tri t) a -> vec_holds m x f -> allocated m (vcells y) ->
  disjoint (mcells_on A (in_tri t)) (vcells y) -> disjoint (vcells x) (vcells y) ->
  par_succeeds (kk_symmetric_matrix_vector_product A t x y) m (fun m' =>
    vec_holds m' y (fun i => bigsum (ext1 A) (fun j => sym_of t a i j * f j)) /\ changes_only m m' (vcells y)).
Proof.
  intros m A t x y a f L. intros. eapply kk_mv_vst; eauto. intros m' [Hv Hch]. split; auto.
  eapply vec_holds_ext; [|exact Hv]. intros i Hi. cbv beta. destruct L as [L| ->].
  - rewrite kk_sym_val_ok by (auto; lia). reflexivity.
  - rewrite kk_sym_val_lower by lia. reflexivity.
Qed.
Lemma kk_symv_same : forall (m : mem O) A t x y a f,
  add_laws O \/ t = Lower ->
  ext0 A = ext1 A -> vext x = ext1 A -> vext y = ext0 A -> plain_m A -> plain_v x -> plain_v y ->
  mat_holds_on m A (in_tri t) a -> vec_holds m x f -> allocated m (vcells y) ->
  disjoint (mcells_on A (in_tri t)) (vcells y) -> disjoint (vcells x) (vcells y) ->
  par_same_as (kk_symmetric_matrix_vector_product A t x y) (symmetric_matrix_vector_product A t x y) m.
Proof.
  intros m A t x y a f L. intros. eapply par_same_vst with (z := y) (g := fun i => bigsum (ext1 A) (fun j => sym_of t a i j * f j));
  [match goal with H : plain_v y |- _ => apply H end|eapply symv_ok; eauto using plain_writable|].
  intros Q HQ. eapply par_mono; [eapply kk_symv_ok; eauto|]. intros; apply HQ; auto.
Qed.
Lemma kk_symv_upd_ok : forall (m : mem O) A t x y z a f g,
  add_laws O ->
  ext0 A = ext1 A -> vext x = ext1 A -> vext y = ext0 A -> vext z = ext0 A -> plain_m A -> plain_v x -> plain_v y -> plain_v z ->
  mat_holds_on m A (in_tri t) a -> vec_holds m x f -> vec_holds m y g -> allocated m (vcells z) ->
  disjoint (mcells_on A (in_tri t)) (vcells z) -> disjoint (vcells x) (vcells z) -> disjoint_or_aligned_v y z ->
  par_succeeds (kk_symmetric_matrix_vector_product_upd A t x y z) m (fun m' =>
    vec_holds m' z (fun i => sum_from (g i) 0 (ext1 A) (fun j => sym_of t a i j * f j)) /\ changes_only m m' (vcells z)).
Proof.
  intros m A t x y z a f g L. intros. eapply kk_mv_upd_vst; eauto. intros m' [Hv Hch]. split; auto.
  eapply vec_holds_ext; [|exact Hv]. intros i Hi. cbv beta.
  rewrite kk_sym_val_ok by (auto; lia). rewrite (sum_from_init L (g i)). reflexivity.
Qed.
Lemma kk_symv_upd_same : forall (m : mem O) A t x y z a f g,
  add_laws O ->
  ext0 A = ext1 A -> vext x = ext1 A -> vext y = ext0 A -> vext z = ext0 A -> plain_m A -> plain_v x -> plain_v y -> plain_v z ->
  mat_holds_on m A (in_tri t) a -> vec_holds m x f -> vec_holds m y g -> allocated m (vcells z) ->
  disjoint (mcells_on A (in_tri t)) (vcells z) -> disjoint (vcells x) (vcells z) -> disjoint_or_aligned_v y z ->
  par_same_as (kk_symmetric_matrix_vector_product_upd A t x y z) (symmetric_matrix_vector_product_upd A t x y z) m.
Proof.
  intros m A t x y z a f g L. intros. eapply par_same_vst with (z := z) (g := fun i => sum_from (g i) 0 (ext1 A) (fun j => sym_of t a i j * f j));
  [match goal with H : plain_v z |- _ => apply H end|eapply symv_upd_ok; eauto using plain_writable|].
  intros Q HQ. eapply par_mono; [eapply kk_symv_upd_ok; eauto|]. intros; apply HQ; auto.
Qed.
(** What hemv computes: the diagonal elements are used as they are stored. *)
Lemma kk_hemv_actual : forall (m : mem O) A t x y a f,
  add_laws O \/ t = Lower ->
  ext0 A = ext1 A -> vext x = ext1 A -> vext y = ext0 A -> plain_m A -> plain_v x -> plain_v y ->
  mat_holds_on m A (in_tri t) a -> vec_holds m x f -> allocated m (vcells y) ->
  disjoint (mcells_on A (in_tri t)) (vcells y) -> disjoint (vcells x) (vcells y) ->
  par_succeeds (kk_hermitian_matrix_vector_product A t x y) m (fun m' =>
    vec_holds m' y (fun i => bigsum (ext1 A) (fun j => fc_of conj t a i j * f j)) /\ changes_only m m' (vcells y)).
Proof.
  intros m A t x y a f L. intros. eapply kk_mv_vst; eauto. intros m' [Hv Hch]. split; auto.
  eapply vec_holds_ext; [|exact Hv]. intros i Hi. cbv beta. destruct L as [L| ->].
  - rewrite kk_sym_val_ok by (auto; lia). reflexivity.
  - rewrite kk_sym_val_lower by lia. reflexivity.
Qed.
Lemma kk_hemv_real : forall (m : mem O) A t x y a f,
  add_laws O \/ t = Lower -> (forall i, i < ext0 A -> re (a i i) = a i i) ->
  ext0 A = ext1 A -> vext x = ext1 A -> vext y = ext0 A -> plain_m A -> plain_v x -> plain_v y ->
  mat_holds_on m A (in_tri t) a -> vec_holds m x f -> allocated m (vcells y) ->
  disjoint (mcells_on A (in_tri t)) (vcells y) -> disjoint (vcells x) (vcells y) ->
  par_succeeds (kk_hermitian_matrix_vector_product A t x y) m (fun m' =>
    vec_holds m' y (fun i => bigsum (ext1 A) (fun j => herm_of t a i j * f j)) /\ changes_only m m' (vcells y)).
Proof.
  intros m A t x y a f L Hre. intros. eapply par_mono; [eapply kk_hemv_actual; eauto|]. intros m' [Hv Hch]. split; auto.
  eapply vec_holds_ext; [|exact Hv]. intros i Hi. cbv beta. apply bigsum_ext. intros. rewrite (@fc_conj_real t (ext0 A)); auto; lia.
Qed.
Lemma kk_hemv_same_real : forall (m : mem O) A t x y a f,
  add_laws O \/ t = Lower -> (forall i, i < ext0 A -> re (a i i) = a i i) ->
  ext0 A = ext1 A -> vext x = ext1 A -> vext y = ext0 A -> plain_m A -> plain_v x -> plain_v y ->
  mat_holds_on m A (in_tri t) a -> vec_holds m x f -> allocated m (vcells y) ->
  disjoint (mcells_on A (in_tri t)) (vcells y) -> disjoint (vcells x) (vcells y) ->
  par_same_as (kk_hermitian_matrix_vector_product A t x y) (hermitian_matrix_vector_product A t x y) m.
Proof.
  intros m A t x y a f L Hre. intros. eapply par_same_vst with (z := y) (g := fun i => bigsum (ext1 A) (fun j => herm_of t a i j * f j));
  [match goal with H : plain_v y |- _ => apply H end|eapply hemv_ok; eauto using plain_writable|].
  intros Q HQ. eapply par_mono; [eapply kk_hemv_real; eauto|]. intros; apply HQ; auto.
Qed.
Lemma kk_hemv_upd_real : forall (m : mem O) A t x y z a f g,
  add_laws O -> (forall i, i < ext0 A -> re (a i i) = a i i) ->
  ext0 A = ext1 A -> vext x = ext1 A -> vext y = ext0 A -> vext z = ext0 A -> plain_m A -> plain_v x -> plain_v y -> plain_v z ->
  mat_holds_on m A (in_tri t) a -> vec_holds m x f -> vec_holds m y g -> allocated m (vcells z) ->
  disjoint (mcells_on A (in_tri t)) (vcells z) -> disjoint (vcells x) (vcells z) -> disjoint_or_aligned_v y z ->
  par_succeeds (kk_hermitian_matrix_vector_product_upd A t x y z) m (fun m' =>
    vec_holds m' z (fun i => sum_from (g i) 0 (ext1 A) (fun j => herm_of t a i j * f j)) /\ changes_only m m' (vcells z)).
Proof.
  intros m A t x y z a f g L Hre. intros. eapply kk_mv_upd_vst; eauto. intros m' [Hv Hch]. split; auto.
  eapply vec_holds_ext; [|exact Hv]. intros i Hi. cbv beta.
  rewrite kk_sym_val_ok by (auto; lia). rewrite (sum_from_init L (g i)). f_equal. apply bigsum_ext. intros.
  rewrite (@fc_conj_real t (ext0 A)); auto; lia.
Qed.
Lemma kk_hemv_upd_same_real : forall (m : mem O) A t x y z a f g,
  add_laws O -> (forall i, i < ext0 A -> re (a i i) = a i i) ->
  ext0 A = ext1 A -> vext x = ext1 A -> vext y = ext0 A -> vext z = ext0 A -> plain_m A -> plain_v x -> plain_v y -> plain_v z ->
  mat_holds_on m A (in_tri t) a -> vec_holds m x f -> vec_holds m y g -> allocated m (vcells z) ->
  disjoint (mcells_on A (in_tri t)) (vcells z) -> disjoint (vcells x) (vcells z) -> disjoint_or_aligned_v y z ->
  par_same_as (kk_hermitian_matrix_vector_product_upd A t x y z) (hermitian_matrix_vector_product_upd A t x y z) m.
Proof.
  intros m A t x y z a f g L Hre. intros. eapply par_same_vst with (z := z) (g := fun i => sum_from (g i) 0 (ext1 A) (fun j => herm_of t a i j * f j));
  [match goal with H : plain_v z |- _ => apply H end|eapply hemv_upd_ok; eauto using plain_writable|].
  intros Q HQ. eapply par_mono; [eapply kk_hemv_upd_real; eauto|]. intros; apply HQ; auto.
Qed.

(** * trmv *)
Lemma kk_trmv_ok : forall (m : mem O) A t d x y a f,
  add_laws O \/ t = Lower \/ d = Explicit ->
  ext0 A = ext1 A -> vext x = ext1 A -> vext y = ext0 A -> plain_m A -> plain_v x -> plain_v y ->
  mat_holds_on m A (stored t d) a -> vec_holds m x f -> allocated m (vcells y) ->
  disjoint (mcells_on A (stored t d)) (vcells y) -> disjoint (vcells x) (vcells y) ->
  par_succeeds (kk_triangular_matrix_vector_product A t d x y) m (fun m' =>
    vec_holds m' y (tri_row zero t d (ext1 A) a f) /\ changes_only m m' (vcells y)).
Proof.
  intros m A t d x y a f L. intros. eapply kk_trmv_vst; eauto. intros m' [Hv Hch]. split; auto.
  eapply vec_holds_ext; [|exact Hv]. intros i Hi. cbv beta. destruct L as [L|L].
  - apply kk_tri_val_ok; auto; lia.
  - apply kk_tri_val_exact; auto; lia.
Qed.
Lemma kk_trmv_ring : forall (m : mem O) A t d x y a f,
  ring_laws O ->
  ext0 A = ext1 A -> vext x = ext1 A -> vext y = ext0 A -> plain_m A -> plain_v x -> plain_v y ->
  mat_holds_on m A (stored t d) a -> vec_holds m x f -> allocated m (vcells y) ->
  disjoint (mcells_on A (stored t d)) (vcells y) -> disjoint (vcells x) (vcells y) ->
  par_succeeds (kk_triangular_matrix_vector_product A t d x y) m (fun m' =>
    vec_holds m' y (fun i => bigsum (ext1 A) (fun j => tri_of t d a i j * f j)) /\ changes_only m m' (vcells y)).
Proof.
  intros m A t d x y a f L. intros. pose proof (ring_add L) as LA. eapply par_mono; [eapply kk_trmv_ok; eauto|].
  intros m' [Hv Hch]. split; auto.
  eapply vec_holds_ext; [|exact Hv]. intros i Hi. cbv beta. rewrite (tri_row_sum L) by lia. apply (add_0_l LA).
Qed.
Lemma kk_trmv_same : forall (m : mem O) A t d x y a f,
  add_laws O \/ t = Lower \/ d = Explicit ->
  ext0 A = ext1 A -> vext x = ext1 A -> vext y = ext0 A -> plain_m A -> plain_v x -> plain_v y ->
  mat_holds_on m A (stored t d) a -> vec_holds m x f -> allocated m (vcells y) ->
  disjoint (mcells_on A (stored t d)) (vcells y) -> disjoint (vcells x) (vcells y) ->
  par_same_as (kk_triangular_matrix_vector_product A t d x y) (triangular_matrix_vector_product A t d x y) m.
Proof.
  intros m A t d x y a f L. intros. eapply par_same_vst with (z := y) (g := tri_row zero t d (ext1 A) a f);
  [match goal with H : plain_v y |- _ => apply H end|eapply trmv_ok; eauto using plain_writable|].
  intros Q HQ. eapply par_mono; [eapply kk_trmv_ok; eauto|]. intros; apply HQ; auto.
Qed.
Lemma tri_row_init : forall init t d n (a : nat -> nat -> O) f i, add_laws O ->
  tri_row init t d n a f i = init + tri_row zero t d n a f i.
Proof. intros init t d n a f i L. destruct t; apply (sum_from_init L). Qed.
Lemma kk_trmv_upd_ok : forall (m : mem O) A t d x y z a f g,
  add_laws O ->
  ext0 A = ext1 A -> vext x = ext1 A -> vext y = ext0 A -> vext z = ext0 A -> plain_m A -> plain_v x -> plain_v y -> plain_v z ->
  mat_holds_on m A (stored t d) a -> vec_holds m x f -> vec_holds m y g -> allocated m (vcells z) ->
  disjoint (mcells_on A (stored t d)) (vcells z) -> disjoint (vcells x) (vcells z) -> disjoint_or_aligned_v y z ->
  par_succeeds (kk_triangular_matrix_vector_product_upd A t d x y z) m (fun m' =>
    vec_holds m' z (fun i => tri_row (g i) t d (ext1 A) a f i) /\ changes_only m m' (vcells z)).
Proof.
  intros m A t d x y z a f g L. intros. eapply kk_trmv_upd_vst; eauto. intros m' [Hv Hch]. split; auto.
  eapply vec_holds_ext; [|exact Hv]. intros i Hi. cbv beta.
  rewrite kk_tri_val_ok by (auto; lia). symmetry. apply tri_row_init; auto.
Qed.
Lemma kk_trmv_upd_same : forall (m : mem O) A t d x y z a f g,
  add_laws O ->
  ext0 A = ext1 A -> vext x = ext1 A -> vext y = ext0 A -> vext z = ext0 A -> plain_m A -> plain_v x -> plain_v y -> plain_v z ->
  mat_holds_on m A (stored t d) a -> vec_holds m x f -> vec_holds m y g -> allocated m (vcells z) ->
  disjoint (mcells_on A (stored t d)) (vcells z) -> disjoint (vcells x) (vcells z) -> disjoint_or_aligned_v y z ->
  par_same_as (kk_triangular_matrix_vector_product_upd A t d x y z) (triangular_matrix_vector_product_upd A t d x y z) m.
Proof.
  intros m A t d x y z a f g L. intros. eapply par_same_vst with (z := z) (g := fun i => tri_row (g i) t d (ext1 A) a f i);
  [match goal with H : plain_v z |- _ => apply H end|eapply trmv_upd_ok; eauto using plain_writable|].
  intros Q HQ. eapply par_mono; [eapply kk_trmv_upd_ok; eauto|]. intros; apply HQ; auto.
Qed.

(** * Symmetric and Hermitian matrix products *)
Lemma plain_mwritable : forall (C : mat O), plain_m C -> mwritable C.
Proof.
  intros C [Hd Hl]. split; auto. intros i j i' j' Hi Hj Hi' Hj' _ _ E. unfold maddr in E.
  destruct Hl as [Hl|Hl]; rewrite Hl in E; simpl in E.
  - apply (@ld_unique (ext0 C)); auto; lia.
  - apply and_comm. apply (@ld_unique (ext1 C)); auto; lia.
Qed.
Lemma kk_symm_left_ok : forall (m : mem O) A t B C a b,
  ext0 A = ext1 A -> ext0 C = ext0 A -> ext1 A = ext0 B -> ext1 C = ext1 B -> plain_m A -> plain_m B -> plain_m C ->
  mat_holds_on m A (in_tri t) a -> mat_holds m B b -> allocated m (mcells C) ->
  disjoint (mcells_on A (in_tri t)) (mcells C) -> disjoint (mcells B) (mcells C) ->
  par_succeeds (kk_symmetric_matrix_left_product A t B C) m (fun m' =>
    mat_holds m' C (fun i j => bigsum (ext1 A) (fun k => sym_of t a i k * b k j)) /\ changes_only m m' (mcells C)).
Proof.
  intros. eapply kk_left_mst; eauto using plain_mwritable. intros m' [Hv Hch]. split; auto.
  eapply mat_holds_on_ext; [|exact Hv]. intros i j Hi Hj _. cbv beta. apply bigsum_ext. intros. rewrite fc_el_id. auto.
Qed.
Lemma kk_symm_left_upd_ok : forall (m : mem O) A t B E C a b e,
  ext0 A = ext1 A -> ext0 C = ext0 A -> ext1 A = ext0 B -> ext1 C = ext1 B -> ext0 E = ext0 C -> ext1 E = ext1 C ->
  plain_m A -> plain_m B -> plain_m E -> plain_m C ->
  mat_holds_on m A (in_tri t) a -> mat_holds m B b -> mat_holds m E e -> allocated m (mcells C) ->
  disjoint (mcells_on A (in_tri t)) (mcells C) -> disjoint (mcells B) (mcells C) -> disjoint_or_aligned_m E C ->
  par_succeeds (kk_symmetric_matrix_left_product_upd A t B E C) m (fun m' =>
    mat_holds m' C (fun i j => sum_from (e i j) 0 (ext1 A) (fun k => sym_of t a i k * b k j)) /\ changes_only m m' (mcells C)).
Proof.
  intros. eapply kk_left_upd_mst with (e := e); eauto using plain_mwritable. intros m' [Hv Hch]. split; auto.
  eapply mat_holds_on_ext; [|exact Hv]. intros i j Hi Hj _. cbv beta. apply sum_from_ext. intros. rewrite fc_el_id. auto.
Qed.
Lemma kk_symm_right_ok : forall (m : mem O) A t B C a b,
  ext0 A = ext1 A -> ext0 C = ext0 B -> ext1 B = ext0 A -> ext1 C = ext1 A -> plain_m A -> plain_m B -> plain_m C ->
  mat_holds_on m A (in_tri t) a -> mat_holds m B b -> allocated m (mcells C) ->
  disjoint (mcells_on A (in_tri t)) (mcells C) -> disjoint (mcells B) (mcells C) ->
  par_succeeds (kk_symmetric_matrix_right_product A t B C) m (fun m' =>
    mat_holds m' C (fun i j => bigsum (ext1 A) (fun k => b i k * sym_of t a k j)) /\ changes_only m m' (mcells C)).
Proof.
  intros. eapply kk_right_mst; eauto using plain_mwritable. intros m' [Hv Hch]. split; auto.
  eapply mat_holds_on_ext; [|exact Hv]. intros i j Hi Hj _. cbv beta. apply bigsum_ext. intros. rewrite fc_el_id. auto.
Qed.
Lemma kk_symm_right_upd_ok : forall (m : mem O) A t B E C a b e,
  ext0 A = ext1 A -> ext0 C = ext0 B -> ext1 B = ext0 A -> ext1 C = ext1 A -> ext0 E = ext0 C -> ext1 E = ext1 C ->
  plain_m A -> plain_m B -> plain_m E -> plain_m C ->
  mat_holds_on m A (in_tri t) a -> mat_holds m B b -> mat_holds m E e -> allocated m (mcells C) ->
  disjoint (mcells_on A (in_tri t)) (mcells C) -> disjoint (mcells B) (mcells C) -> disjoint_or_aligned_m E C ->
  par_succeeds (kk_symmetric_matrix_right_product_upd A t B E C) m (fun m' =>
    mat_holds m' C (fun i j => sum_from (e i j) 0 (ext1 A) (fun k => b i k * sym_of t a k j)) /\ changes_only m m' (mcells C)).
Proof.
  intros. unfold kk_symmetric_matrix_right_product_upd, check_right, check_E. plain.
  eapply kk_right_upd_mst with (e := e) (a := a) (b := b); eauto using plain_mwritable. intros m' [Hv Hch]. split; auto.
  eapply mat_holds_on_ext; [|exact Hv]. intros i j Hi Hj _. cbv beta. apply sum_from_ext. intros. rewrite fc_el_id. auto.
Qed.
(** What the Hermitian products compute: conj(A(i,i)) on the diagonal. *)
Lemma kk_hemm_left_actual : forall (m : mem O) A t B C a b,
  ext0 A = ext1 A -> ext0 C = ext0 A -> ext1 A = ext0 B -> ext1 C = ext1 B -> plain_m A -> plain_m B -> plain_m C ->
  mat_holds_on m A (in_tri t) a -> mat_holds m B b -> allocated m (mcells C) ->
  disjoint (mcells_on A (in_tri t)) (mcells C) -> disjoint (mcells B) (mcells C) ->
  par_succeeds (kk_hermitian_matrix_left_product A t B C) m (fun m' =>
    mat_holds m' C (fun i j => bigsum (ext1 A) (fun k => fc_el conj t a i k * b k j)) /\ changes_only m m' (mcells C)).
Proof. intros. eapply kk_left_mst; eauto using plain_mwritable. Qed.
Lemma kk_hemm_left_real : forall (m : mem O) A t B C a b,
  (forall i, i < ext0 A -> conj (a i i) = re (a i i)) ->
  ext0 A = ext1 A -> ext0 C = ext0 A -> ext1 A = ext0 B -> ext1 C = ext1 B -> plain_m A -> plain_m B -> plain_m C ->
  mat_holds_on m A (in_tri t) a -> mat_holds m B b -> allocated m (mcells C) ->
  disjoint (mcells_on A (in_tri t)) (mcells C) -> disjoint (mcells B) (mcells C) ->
  par_succeeds (kk_hermitian_matrix_left_product A t B C) m (fun m' =>
    mat_holds m' C (fun i j => bigsum (ext1 A) (fun k => herm_of t a i k * b k j)) /\ changes_only m m' (mcells C)).
Proof.
  intros m A t B C a b Hre. intros. eapply par_mono; [eapply kk_hemm_left_actual; eauto|]. intros m' [Hv Hch]. split; auto.
  eapply mat_holds_on_ext; [|exact Hv]. intros i j Hi Hj _. cbv beta. apply bigsum_ext. intros.
  rewrite (@fc_el_conj t (ext0 A)); auto; lia.
Qed.
Lemma kk_hemm_left_upd_real : forall (m : mem O) A t B E C a b e,
  (forall i, i < ext0 A -> conj (a i i) = re (a i i)) ->
  ext0 A = ext1 A -> ext0 C = ext0 A -> ext1 A = ext0 B -> ext1 C = ext1 B -> ext0 E = ext0 C -> ext1 E = ext1 C ->
  plain_m A -> plain_m B -> plain_m E -> plain_m C ->
  mat_holds_on m A (in_tri t) a -> mat_holds m B b -> mat_holds m E e -> allocated m (mcells C) ->
  disjoint (mcells_on A (in_tri t)) (mcells C) -> disjoint (mcells B) (mcells C) -> disjoint_or_aligned_m E C ->
  par_succeeds (kk_hermitian_matrix_left_product_upd A t B E C) m (fun m' =>
    mat_holds m' C (fun i j => sum_from (e i j) 0 (ext1 A) (fun k => herm_of t a i k * b k j)) /\ changes_only m m' (mcells C)).
Proof.
  intros m A t B E C a b e Hre. intros. eapply kk_left_upd_mst with (e := e); eauto using plain_mwritable. intros m' [Hv Hch]. split; auto.
  eapply mat_holds_on_ext; [|exact Hv]. intros i j Hi Hj _. cbv beta. apply sum_from_ext. intros.
  rewrite (@fc_el_conj t (ext0 A)); auto; lia.
Qed.
Lemma kk_hemm_right_real : forall (m : mem O) A t B C a b,
  (forall i, i < ext0 A -> conj (a i i) = re (a i i)) ->
  ext0 A = ext1 A -> ext0 C = ext0 B -> ext1 B = ext0 A -> ext1 C = ext1 A -> plain_m A -> plain_m B -> plain_m C ->
  mat_holds_on m A (in_tri t) a -> mat_holds m B b -> allocated m (mcells C) ->
  disjoint (mcells_on A (in_tri t)) (mcells C) -> disjoint (mcells B) (mcells C) ->
  par_succeeds (kk_hermitian_matrix_right_product A t B C) m (fun m' =>
    mat_holds m' C (fun i j => bigsum (ext1 A) (fun k => b i k * herm_of t a k j)) /\ changes_only m m' (mcells C)).
Proof.
  intros m A t B C a b Hre. intros. eapply kk_right_mst; eauto using plain_mwritable. intros m' [Hv Hch]. split; auto.
  eapply mat_holds_on_ext; [|exact Hv]. intros i j Hi Hj _. cbv beta. apply bigsum_ext. intros.
  rewrite (@fc_el_conj t (ext0 A)); auto; lia.
Qed.
Lemma kk_hemm_right_upd_real : forall (m : mem O) A t B E C a b e,
  (forall i, i < ext0 A -> conj (a i i) = re (a i i)) ->
  ext0 A = ext1 A -> ext0 C = ext0 B -> ext1 B = ext0 A -> ext1 C = ext1 A -> ext0 E = ext0 C -> ext1 E = ext1 C ->
  plain_m A -> plain_m B -> plain_m E -> plain_m C ->
  mat_holds_on m A (in_tri t) a -> mat_holds m B b -> mat_holds m E e -> allocated m (mcells C) ->
  disjoint (mcells_on A (in_tri t)) (mcells C) -> disjoint (mcells B) (mcells C) -> disjoint_or_aligned_m E C ->
  par_succeeds (kk_hermitian_matrix_right_product_upd A t B E C) m (fun m' =>
    mat_holds m' C (fun i j => sum_from (e i j) 0 (ext1 A) (fun k => b i k * herm_of t a k j)) /\ changes_only m m' (mcells C)).
Proof.
  intros m A t B E C a b e Hre. intros. unfold kk_hermitian_matrix_right_product_upd, check_right. plain.
  eapply kk_right_upd_mst with (e := e) (a := a) (b := b); eauto using plain_mwritable. intros m' [Hv Hch]. split; auto.
  eapply mat_holds_on_ext; [|exact Hv]. intros i j Hi Hj _. cbv beta. apply sum_from_ext. intros.
  rewrite (@fc_el_conj t (ext0 A)); auto; lia.
Qed.
Lemma kk_symm_left_same : forall (m : mem O) A t B C a b,
  ext0 A = ext1 A -> ext0 C = ext0 A -> ext1 A = ext0 B -> ext1 C = ext1 B -> plain_m A -> plain_m B -> plain_m C ->
  mat_holds_on m A (in_tri t) a -> mat_holds m B b -> allocated m (mcells C) ->
  disjoint (mcells_on A (in_tri t)) (mcells C) -> disjoint (mcells B) (mcells C) ->
  par_same_as (kk_symmetric_matrix_left_product A t B C) (symmetric_matrix_product_left A t B C) m.
Proof.
  intros. eapply par_same_mst with (C := C) (P := all2) (g := fun i j => bigsum (ext1 A) (fun k => sym_of t a i k * b k j));
  [exact all2_dec|match goal with H : plain_m C |- _ => apply H end|eapply symm_left_ok; eauto using plain_mwritable|].
  intros Q HQ. eapply par_mono; [eapply kk_symm_left_ok; eauto|]. intros; apply HQ; auto.
Qed.
Lemma kk_symm_right_same : forall (m : mem O) A t B C a b,
  ext0 A = ext1 A -> ext0 C = ext0 B -> ext1 B = ext0 A -> ext1 C = ext1 A -> plain_m A -> plain_m B -> plain_m C ->
  mat_holds_on m A (in_tri t) a -> mat_holds m B b -> allocated m (mcells C) ->
  disjoint (mcells_on A (in_tri t)) (mcells C) -> disjoint (mcells B) (mcells C) ->
  par_same_as (kk_symmetric_matrix_right_product A t B C) (symmetric_matrix_product_right B A t C) m.
Proof.
  intros. eapply par_same_mst with (C := C) (P := all2) (g := fun i j => bigsum (ext1 A) (fun k => b i k * sym_of t a k j));
  [exact all2_dec|match goal with H : plain_m C |- _ => apply H end|eapply symm_right_ok; eauto using plain_mwritable|].
  intros Q HQ. eapply par_mono; [eapply kk_symm_right_ok; eauto|]. intros; apply HQ; auto.
Qed.
Lemma kk_hemm_left_same_real : forall (m : mem O) A t B C a b,
  (forall i, i < ext0 A -> conj (a i i) = re (a i i)) ->
  ext0 A = ext1 A -> ext0 C = ext0 A -> ext1 A = ext0 B -> ext1 C = ext1 B -> plain_m A -> plain_m B -> plain_m C ->
  mat_holds_on m A (in_tri t) a -> mat_holds m B b -> allocated m (mcells C) ->
  disjoint (mcells_on A (in_tri t)) (mcells C) -> disjoint (mcells B) (mcells C) ->
  par_same_as (kk_hermitian_matrix_left_product A t B C) (hermitian_matrix_product_left A t B C) m.
Proof.
  intros m A t B C a b Hre. intros.
  eapply par_same_mst with (C := C) (P := all2) (g := fun i j => bigsum (ext1 A) (fun k => herm_of t a i k * b k j));
  [exact all2_dec|match goal with H : plain_m C |- _ => apply H end|eapply hemm_left_ok; eauto using plain_mwritable|].
  intros Q HQ. eapply par_mono; [eapply kk_hemm_left_real; eauto|]. intros; apply HQ; auto.
Qed.

(** * Triangular matrix products *)
Lemma tri_val_left : forall t d n (a : nat -> nat -> O) f i, ring_laws O -> i < n ->
  kk_tri_val t d n a f i = bigsum n (fun k => tri_of t d a i k * f k).
Proof.
  intros t d n a f i L Hi. pose proof (ring_add L) as LA.
  rewrite kk_tri_val_ok by auto. rewrite (tri_row_sum L) by auto. apply (add_0_l LA).
Qed.
Lemma kk_trmm_left_unit_ok : forall (m : mem O) A t B C a b,
  ring_laws O ->
  ext0 A = ext1 A -> ext0 C = ext0 A -> ext1 A = ext0 B -> ext1 C = ext1 B -> plain_m A -> plain_m B -> plain_m C ->
  mat_holds_on m A (stored t ImplicitUnit) a -> mat_holds m B b -> allocated m (mcells C) ->
  disjoint (mcells_on A (stored t ImplicitUnit)) (mcells C) -> disjoint_or_aligned_m B C ->
  par_succeeds (kk_triangular_matrix_left_product_unit A t B C) m (fun m' =>
    mat_holds m' C (fun i j => bigsum (ext1 A) (fun k => tri_of t ImplicitUnit a i k * b k j)) /\ changes_only m m' (mcells C)).
Proof.
  intros m A t B C a b L. intros. unfold kk_triangular_matrix_left_product_unit, check_left. plain.
  eapply kk_trmm_left_mst; eauto using plain_mwritable. intros m' [Hv Hch]. split; auto.
  eapply mat_holds_on_ext; [|exact Hv]. intros i j Hi Hj _. cbv beta.
  replace (ext0 C) with (ext1 A) by lia. rewrite tri_val_left by (auto; lia). reflexivity.
Qed.
Lemma kk_trmm_right_unit_ok : forall (m : mem O) A t B C a b,
  ring_laws O ->
  ext0 A = ext1 A -> ext0 C = ext0 B -> ext1 B = ext0 A -> ext1 C = ext1 A -> plain_m A -> plain_m B -> plain_m C ->
  mat_holds_on m A (stored t ImplicitUnit) a -> mat_holds m B b -> allocated m (mcells C) ->
  disjoint (mcells_on A (stored t ImplicitUnit)) (mcells C) -> disjoint_or_aligned_m B C ->
  par_succeeds (kk_triangular_matrix_right_product_unit A t B C) m (fun m' =>
    mat_holds m' C (fun i j => bigsum (ext1 A) (fun k => b i k * tri_of t ImplicitUnit a k j)) /\ changes_only m m' (mcells C)).
Proof.
  intros m A t B C a b L. intros. unfold kk_triangular_matrix_right_product_unit, check_right. plain.
  eapply kk_trmm_right_mst; eauto using plain_mwritable. intros m' [Hv Hch]. split; auto.
  eapply mat_holds_on_ext; [|exact Hv]. intros i j Hi Hj _. cbv beta.
  replace (ext1 C) with (ext1 A) by lia. rewrite kk_tri_val_r_ok by (auto; lia). reflexivity.
Qed.
Lemma aligned_refl : forall (C : mat O), disjoint_or_aligned_m C C.
Proof. intros C. right. intros i j _ _. auto. Qed.
Lemma mat_alloc : forall (m : mem O) C c, mat_holds m C c -> allocated m (mcells C).
Proof. intros m C c H b (i & j & Hi & Hj & _ & ->). destruct (H i j Hi Hj I) as (v & Hv & _). congruence. Qed.
Lemma kk_trmm_left_inplace_unit_ok : forall (m : mem O) A t C a c,
  ring_laws O ->
  ext0 A = ext1 A -> ext0 C = ext0 A -> plain_m A -> plain_m C ->
  mat_holds_on m A (stored t ImplicitUnit) a -> mat_holds m C c ->
  disjoint (mcells_on A (stored t ImplicitUnit)) (mcells C) ->
  par_succeeds (kk_triangular_matrix_left_product_inplace_unit A t C) m (fun m' =>
    mat_holds m' C (fun i j => bigsum (ext1 A) (fun k => tri_of t ImplicitUnit a i k * c k j)) /\ changes_only m m' (mcells C)).
Proof.
  intros m A t C a c L. intros. unfold kk_triangular_matrix_left_product_inplace_unit, check_left. plain.
  eapply kk_trmm_left_mst; eauto using plain_mwritable, aligned_refl, mat_alloc; try lia. intros m' [Hv Hch]. split; auto.
  eapply mat_holds_on_ext; [|exact Hv]. intros i j Hi Hj _. cbv beta.
  replace (ext0 C) with (ext1 A) by lia. rewrite tri_val_left by (auto; lia). reflexivity.
Qed.
Lemma kk_trmm_right_inplace_unit_ok : forall (m : mem O) A t C a c,
  ring_laws O ->
  ext0 A = ext1 A -> ext1 C = ext0 A -> plain_m A -> plain_m C ->
  mat_holds_on m A (stored t ImplicitUnit) a -> mat_holds m C c ->
  disjoint (mcells_on A (stored t ImplicitUnit)) (mcells C) ->
  par_succeeds (kk_triangular_matrix_right_product_inplace_unit A t C) m (fun m' =>
    mat_holds m' C (fun i j => bigsum (ext1 A) (fun k => c i k * tri_of t ImplicitUnit a k j)) /\ changes_only m m' (mcells C)).
Proof.
  intros m A t C a c L. intros. unfold kk_triangular_matrix_right_product_inplace_unit, check_right. plain.
  eapply kk_trmm_right_mst; eauto using plain_mwritable, aligned_refl, mat_alloc; try lia. intros m' [Hv Hch]. split; auto.
  eapply mat_holds_on_ext; [|exact Hv]. intros i j Hi Hj _. cbv beta.
  replace (ext1 C) with (ext1 A) by lia. rewrite kk_tri_val_r_ok by (auto; lia). reflexivity.
Qed.
(** Same memory as the inline in-place products. *)
Lemma kk_trmm_left_inplace_same : forall (m : mem O) A t C a c,
  ring_laws O ->
  ext0 A = ext1 A -> ext0 C = ext0 A -> plain_m A -> plain_m C ->
  mat_holds_on m A (stored t ImplicitUnit) a -> mat_holds m C c ->
  disjoint (mcells_on A (stored t ImplicitUnit)) (mcells C) ->
  par_same_as (kk_triangular_matrix_left_product_inplace_unit A t C) (triangular_matrix_left_product A t ImplicitUnit C) m.
Proof.
  intros m A t C a c L. intros.
  eapply par_same_mst with (C := C) (P := all2) (g := fun i j => bigsum (ext1 A) (fun k => tri_of t ImplicitUnit a i k * c k j));
  [exact all2_dec|match goal with H : plain_m C |- _ => apply H end|eapply trmm_left_inplace_ok; eauto using plain_mwritable|].
  intros Q HQ. eapply par_mono; [eapply kk_trmm_left_inplace_unit_ok; eauto|]. intros; apply HQ; auto.
Qed.
Lemma kk_trmm_right_inplace_same : forall (m : mem O) A t C a c,
  ring_laws O ->
  ext0 A = ext1 A -> ext1 C = ext0 A -> plain_m A -> plain_m C ->
  mat_holds_on m A (stored t ImplicitUnit) a -> mat_holds m C c ->
  disjoint (mcells_on A (stored t ImplicitUnit)) (mcells C) ->
  par_same_as (kk_triangular_matrix_right_product_inplace_unit A t C) (triangular_matrix_right_product A t ImplicitUnit C) m.
Proof.
  intros m A t C a c L. intros.
  eapply par_same_mst with (C := C) (P := all2) (g := fun i j => bigsum (ext1 A) (fun k => c i k * tri_of t ImplicitUnit a k j));
  [exact all2_dec|match goal with H : plain_m C |- _ => apply H end|eapply trmm_right_inplace_ok; eauto using plain_mwritable|].
  intros Q HQ. eapply par_mono; [eapply kk_trmm_right_inplace_unit_ok; eauto|]. intros; apply HQ; auto.
Qed.
End Results.

(** Further BLAS-2 consequences: agreement of the triangular product forms, solve/multiply inversion,
    empty systems, real diagonals after Hermitian updates. *)
From Coq Require Import List Arith ZArith Lia Bool.
From Verif Require Import Mem Scalar View Spec Wp Loops Sums Alg Idx Blas1 Blas2 PfBlas1 PfBlas2 PfTrmv PfTrsv PfRank.
Set Implicit Arguments.
Local Open Scope sc_scope.

Section Pf.
Context {O : ops}.

Lemma trmv_ring_ok : forall (m : mem O) A t d x y a f,
  ring_laws O ->
  ext0 A = ext1 A -> vext x = ext1 A -> vext y = ext0 A ->
  mat_holds_on m A (stored t d) a -> vec_holds m x f -> vwritable y -> allocated m (vcells y) ->
  disjoint (mcells_on A (stored t d)) (vcells y) -> disjoint (vcells x) (vcells y) ->
  succeeds (triangular_matrix_vector_product A t d x y) m (fun _ m' =>
    vec_holds m' y (fun i => bigsum (ext1 A) (fun j => tri_of t d a i j * f j)) /\ changes_only m m' (vcells y)).
Proof.
  intros m A t d x y a f L Hsq Hx Hy HA Hf Hw Hal Hd1 Hd2.
  eapply wp_conseq; [eapply trmv_ok; eauto|]. intros [] m' [H1 H2]; split; auto.
  eapply vec_holds_ext; [|exact H1]. intros i Hi.
  rewrite (tri_row_sum L) by lia. apply (add_0_l (ring_add L)).
Qed.
Lemma trmv_upd_ring_ok : forall (m : mem O) A t d x y z a f g,
  ring_laws O ->
  ext0 A = ext1 A -> vext x = ext1 A -> vext y = ext0 A -> vext z = ext0 A ->
  mat_holds_on m A (stored t d) a -> vec_holds m x f -> vec_holds m y g -> vwritable z -> allocated m (vcells z) ->
  disjoint (mcells_on A (stored t d)) (vcells z) -> disjoint (vcells x) (vcells z) -> disjoint_or_aligned_v y z ->
  succeeds (triangular_matrix_vector_product_upd A t d x y z) m (fun _ m' =>
    vec_holds m' z (fun i => g i + bigsum (ext1 A) (fun j => tri_of t d a i j * f j)) /\ changes_only m m' (vcells z)).
Proof.
  intros m A t d x y z a f g L Hsq Hx Hy Hz HA Hf Hg Hw Hal Hd1 Hd2 Hd3.
  eapply wp_conseq; [eapply trmv_upd_ok; eauto|]. intros [] m' [H1 H2]; split; auto.
  eapply vec_holds_ext; [|exact H1]. intros i Hi. apply (tri_row_sum L); lia.
Qed.

Lemma restore_v : forall (m m' : mem O) x f, vacc x = ADefault ->
  vec_holds m x f -> vec_holds m' x f -> changes_only m m' (vcells x) -> same_memory m m'.
Proof.
  intros m m' x f Hd H1 H2 Hc a.
  destruct (in_dec Nat.eq_dec a (map (vaddr x) (seq 0 (vext x)))) as [Hin|Hn].
  - apply in_map_iff in Hin. destruct Hin as (i & <- & Hi). apply in_seq in Hi.
    destruct (H1 i) as (v & Hv & Hv'); [lia|]. destruct (H2 i) as (w & Hw & Hw'); [lia|].
    rewrite Hd in *; simpl in *. congruence.
  - apply Hc. intros (i & Hi & ->). apply Hn, in_map, in_seq; lia.
Qed.

Lemma div_ok_nonzero : div_laws O -> forall d n (a : nat -> nat -> O),
  (d = Explicit -> forall i, i < n -> a i i <> zero) -> div_ok div d n a.
Proof. intros D d n a H Hd i s Hi. apply (div_l D); auto. Qed.

Lemma vec_holds_det : forall (m : mem O) x f g, vec_holds m x f -> vec_holds m x g ->
  forall i, i < vext x -> f i = g i.
Proof.
  intros m x f g H1 H2 i Hi. destruct (H1 i Hi) as (v & Hv & <-). destruct (H2 i Hi) as (w & Hw & <-). congruence.
Qed.

Lemma trsv_after_trmv : forall ty (m : mem O) A t d y a f,
  ring_laws O -> mul_commutes O -> div_laws O ->
  fits ty (ext0 A) -> (ext0 A = 0 -> t = Upper -> ty <> U32) ->
  ext0 A = ext1 A -> vext y = ext0 A ->
  mat_holds_on m A (stored t d) a -> vec_holds m y f -> vwritable y ->
  disjoint (mcells_on A (stored t d)) (vcells y) ->
  (d = Explicit -> forall i, i < ext0 A -> a i i <> zero) ->
  succeeds (bind (triangular_matrix_vector_product_inplace A t d y)
              (fun _ => triangular_matrix_vector_solve ty A t d y y)) m (fun _ m' => same_memory m m').
Proof.
  intros ty m A t d y a f L C D Hf Hz Hsq Hy HA Hv Hw Hd Hnz.
  apply wp_bind. eapply wp_conseq; [eapply trmv_inplace_ok; eauto|]. intros [] m1 [H1 H2].
  assert (mat_holds_on m1 A (stored t d) a) as HA1 by (eapply mat_holds_frame; eauto).
  eapply wp_conseq.
  { eapply trsv_ok with (a := a) (B := y) (X := y); eauto using vec_holds_alloc, div_ok_nonzero.
    right; intros ? ?; reflexivity. }
  intros [] m2 [(g & Hg & E) H3].
  eapply restore_v with (f := f); eauto; [apply Hw| |eapply changes_only_trans; eauto].
  eapply vec_holds_ext; [|exact Hg]. intros i Hi.
  apply (@tri_unique O L t d (ext0 A) a); [apply cancels_div; auto| |lia].
  intros k Hk. rewrite E by auto. rewrite Hsq. auto.
Qed.

Lemma trmv_after_trsv : forall ty (m : mem O) A t d y a f,
  ring_laws O -> mul_commutes O -> div_laws O ->
  fits ty (ext0 A) -> (ext0 A = 0 -> t = Upper -> ty <> U32) ->
  ext0 A = ext1 A -> vext y = ext0 A ->
  mat_holds_on m A (stored t d) a -> vec_holds m y f -> vwritable y ->
  disjoint (mcells_on A (stored t d)) (vcells y) ->
  (d = Explicit -> forall i, i < ext0 A -> a i i <> zero) ->
  succeeds (bind (triangular_matrix_vector_solve ty A t d y y)
              (fun _ => triangular_matrix_vector_product_inplace A t d y)) m (fun _ m' => same_memory m m').
Proof.
  intros ty m A t d y a f L C D Hf Hz Hsq Hy HA Hv Hw Hd Hnz.
  apply wp_bind. eapply wp_conseq.
  { eapply trsv_ok with (a := a) (B := y) (X := y); eauto using vec_holds_alloc, div_ok_nonzero.
    right; intros ? ?; reflexivity. }
  intros [] m1 [(g & Hg & E) H3].
  assert (mat_holds_on m1 A (stored t d) a) as HA1 by (eapply mat_holds_frame; eauto).
  eapply wp_conseq; [eapply trmv_inplace_ok; eauto|]. intros [] m2 [H1 H2].
  eapply restore_v with (f := f); eauto; [apply Hw| |eapply changes_only_trans; eauto].
  eapply vec_holds_ext; [|exact H1]. intros i Hi. cbv beta. rewrite <- Hsq. apply E. lia.
Qed.

(** Overwriting product into z and in-place product of y agree. *)
Lemma trmv_forms_agree : forall (m : mem O) A t d x y a f,
  ring_laws O -> mul_commutes O ->
  ext0 A = ext1 A -> vext x = ext1 A -> vext y = ext0 A ->
  mat_holds_on m A (stored t d) a -> vec_holds m x f -> vwritable y -> allocated m (vcells y) ->
  disjoint (mcells_on A (stored t d)) (vcells y) -> disjoint (vcells x) (vcells y) ->
  exists m1 m2,
    run (triangular_matrix_vector_product A t d x y) m = Ok tt m1 /\
    run (bind (copy_1 x y) (fun _ => triangular_matrix_vector_product_inplace A t d y)) m = Ok tt m2 /\
    same_memory m1 m2.
Proof.
  intros m A t d x y a f L C Hsq Hx Hy HA Hf Hw Hal Hd1 Hd2.
  destruct (@trmv_ring_ok m A t d x y a f) as ([] & m1 & R1 & H1 & H2); auto.
  assert (succeeds (bind (copy_1 x y) (fun _ => triangular_matrix_vector_product_inplace A t d y)) m
     (fun _ m2 => vec_holds m2 y (fun i => bigsum (ext1 A) (fun j => tri_of t d a i j * f j)) /\ changes_only m m2 (vcells y)))
    as ([] & m2 & R2 & H3 & H4).
  { apply wp_bind. eapply wp_conseq; [eapply copy_1_ok with (f := f); eauto; [lia|left; auto]|].
    intros [] m1' [K1 K2].
    assert (mat_holds_on m1' A (stored t d) a) as HA1 by (eapply mat_holds_frame; eauto).
    eapply wp_conseq; [eapply trmv_inplace_ok; eauto|]. intros [] m2 [K3 K4]. split; auto.
    eapply changes_only_trans; eauto. }
  exists m1, m2. split; auto. split; auto.
  eapply restore_v with (x := y); eauto; [apply Hw|].
  intros c Hc. rewrite H2, H4; auto.
Qed.

(** * Empty systems *)
Lemma trsv_empty_ok : forall ty divide (m : mem O) A t d B X,
  ext0 A = 0 -> (t = Upper -> ty <> U32) ->
  run (triangular_matrix_vector_solve_with ty divide A t d B X) m = Ok tt m.
Proof.
  intros ty divide m A t d B X H0 Ht. destruct t; simpl.
  - unfold trsv_lower. rewrite H0. reflexivity.
  - unfold trsv_upper. rewrite H0, descending_start_ok; auto.
    unfold fits. destruct ty; vm_compute; split; congruence.
Qed.

Lemma for_down_pos : forall T n (body : nat -> prog T unit) m e,
  (forall i, run (body i) m = Err e m) -> 0 < n -> run (for_down n body) m = Err e m.
Proof. intros T n body m e H Hn. destruct n as [|n]; [lia|]. simpl. rewrite run_bind, H. auto. Qed.

Lemma trsv_empty_u32 : forall divide (m : mem O) A d B X,
  ext0 A = 0 -> vext B = 0 ->
  run (triangular_matrix_vector_solve_with U32 divide A Upper d B X) m = Err OutOfBounds m.
Proof.
  intros divide m A d B X H0 HB. simpl. unfold trsv_upper. rewrite H0. apply for_down_pos.
  - intros i. unfold vget at 1. rewrite HB. reflexivity.
  - change (descending_start U32 0 + 1)%Z with 4294967296%Z. rewrite <- Z2Nat.inj_0. apply Z2Nat.inj_lt; lia.
Qed.

(** * Real diagonal after Hermitian updates *)
Lemma real_diag_holds : forall (m : mem O) A t f,
  mat_holds_on m A (in_tri t) f -> (forall i, conj (f i i) = f i i) -> real_diagonal m A.
Proof.
  intros m A t f H E i Hi Hj. destruct (H i i Hi Hj) as (v & Hv & Hf).
  { destruct t; simpl; lia. }
  exists v; split; auto. rewrite Hf; auto.
Qed.
Lemma herm_of_diag : forall t (a : nat -> nat -> O) i, herm_of t a i i = re (a i i).
Proof. intros. unfold herm_of. rewrite Nat.eqb_refl; auto. Qed.

Lemma her_real : forall (m : mem O) x A t a f,
  conj_laws O ->
  ext0 A = ext1 A -> vext x = ext0 A ->
  mat_holds_on m A (in_tri t) a -> vec_holds m x f -> mwritable_on A (in_tri t) ->
  disjoint (vcells x) (mcells_on A (in_tri t)) ->
  succeeds (hermitian_matrix_rank_1_update x A t) m (fun _ m' => real_diagonal m' A).
Proof.
  intros m x A t a f K Hsq Hx HA Hf Hw Hd. eapply wp_conseq; [eapply her_ok; eauto|].
  intros [] m' [H _]. eapply real_diag_holds; [exact H|]. intros i. cbv beta.
  rewrite herm_of_diag, (conj_add K), (conj_re K), (conj_mul K), (conj_conj K); auto.
Qed.
Lemma her_alpha_real : forall (m : mem O) alpha x A t a f,
  ring_laws O -> conj_laws O -> mul_commutes O -> conj alpha = alpha ->
  ext0 A = ext1 A -> vext x = ext0 A ->
  mat_holds_on m A (in_tri t) a -> vec_holds m x f -> mwritable_on A (in_tri t) ->
  disjoint (vcells x) (mcells_on A (in_tri t)) ->
  succeeds (hermitian_matrix_rank_1_update_alpha alpha x A t) m (fun _ m' => real_diagonal m' A).
Proof.
  intros m alpha x A t a f L K C Ha Hsq Hx HA Hf Hw Hd. eapply wp_conseq; [eapply her_alpha_ok; eauto|].
  intros [] m' [H _]. eapply real_diag_holds; [exact H|]. intros i. cbv beta.
  rewrite herm_of_diag, (conj_add K), (conj_re K), !(conj_mul K), (conj_conj K), Ha. f_equal.
  rewrite (C (conj (f i))), (mul_assoc L). f_equal. apply C.
Qed.
Lemma her2_real : forall (m : mem O) x y A t a f g,
  add_laws O -> conj_laws O ->
  ext0 A = ext1 A -> vext x = ext0 A -> vext y = ext0 A ->
  mat_holds_on m A (in_tri t) a -> vec_holds m x f -> vec_holds m y g -> mwritable_on A (in_tri t) ->
  disjoint (vcells x) (mcells_on A (in_tri t)) -> disjoint (vcells y) (mcells_on A (in_tri t)) ->
  succeeds (hermitian_matrix_rank_2_update x y A t) m (fun _ m' => real_diagonal m' A).
Proof.
  intros m x y A t a f g LA K Hsq Hx Hy HA Hf Hg Hw Hd1 Hd2. eapply wp_conseq; [eapply her2_ok; eauto|].
  intros [] m' [H _]. eapply real_diag_holds; [exact H|]. intros i. cbv beta.
  rewrite herm_of_diag, !(conj_add K), (conj_re K), !(conj_mul K), !(conj_conj K). f_equal. apply (add_comm LA).
Qed.
End Pf.

(** Lemmas for C98: sums and substitutions cut in two. *)
From Coq Require Import List Arith ZArith Lia Bool.
From Verif Require Import Mem Scalar View Spec SpecSub SpecAgree Wp Loops Sums Idx PfView Blas1 PfBlas1 Blas2 PfBlas2 PfTrsv PfRank
  Blas3 PfBlas3 PfTrsm PfBlas3b PfKK PfSub PfAgree PfAgree2 SpecBlk.
Import ListNotations.
Set Implicit Arguments.
Local Open Scope sc_scope.

Section Pf.
Context {O : ops}.
Lemma sub_v_holds : forall (m : mem O) x f lo n, vec_holds m x f -> lo + n <= vext x -> vec_holds m (sub_v x lo n) (fun i => f (lo + i)%nat).
Proof. intros m x f lo n H Hn i Hi. simpl in Hi. destruct (H (lo + i)%nat) as (v & H1 & H2); [lia|]. exists v. auto. Qed.
Lemma sub_m_holds_on : forall (m : mem O) A (P Q : nat -> nat -> Prop) a r n c k, mat_holds_on m A P a -> r + n <= ext0 A -> c + k <= ext1 A ->
  (forall i j, i < n -> j < k -> Q i j -> P (r + i)%nat (c + j)%nat) ->
  mat_holds_on m (sub_m A r n c k) Q (fun i j => a (r + i)%nat (c + j)%nat).
Proof. intros m A P Q a r n c k H Hn Hk HP i j Hi Hj HQ. simpl in Hi, Hj. destruct (H (r + i)%nat (c + j)%nat) as (v & H1 & H2); [lia|lia|auto|]. exists v. auto. Qed.
Lemma sub_m_holds : forall (m : mem O) A a r n c k, mat_holds m A a -> r + n <= ext0 A -> c + k <= ext1 A ->
  mat_holds m (sub_m A r n c k) (fun i j => a (r + i)%nat (c + j)%nat).
Proof. intros. eapply sub_m_holds_on; eauto. Qed.
Lemma sub_v_cells : forall (x : vec O) lo n a, lo + n <= vext x -> vcells (sub_v x lo n) a -> vcells x a.
Proof. intros x lo n a H (i & Hi & ->). simpl in Hi. exists (lo + i)%nat. split; [lia|reflexivity]. Qed.
Lemma sub_m_cells_on : forall (A : mat O) (P Q : nat -> nat -> Prop) r n c k a, r + n <= ext0 A -> c + k <= ext1 A ->
  (forall i j, i < n -> j < k -> Q i j -> P (r + i)%nat (c + j)%nat) -> mcells_on (sub_m A r n c k) Q a -> mcells_on A P a.
Proof. intros A P Q r n c k a H1 H2 HP (i & j & Hi & Hj & HQ & ->). simpl in Hi, Hj. exists (r + i)%nat, (c + j)%nat. repeat split; auto; lia. Qed.
Lemma sub_m_cells : forall (A : mat O) r n c k a, r + n <= ext0 A -> c + k <= ext1 A -> mcells (sub_m A r n c k) a -> mcells A a.
Proof. intros A r n c k a H1 H2. apply sub_m_cells_on; auto. Qed.
Lemma sub_v_writable : forall (x : vec O) lo n, lo + n <= vext x -> vwritable x -> vwritable (sub_v x lo n).
Proof. intros x lo n H [H1 H2]. split; auto. intros i j Hi Hj E. simpl in Hi, Hj. assert (lo + i = lo + j)%nat; [|lia]. apply H2; auto; lia. Qed.
Lemma sub_m_writable : forall (A : mat O) r n c k, r + n <= ext0 A -> c + k <= ext1 A -> mwritable A -> mwritable (sub_m A r n c k).
Proof.
  intros A r n c k H H' [H1 H2]. split; auto. intros i j i' j' Hi Hj Hi' Hj' _ _ E. simpl in Hi, Hj, Hi', Hj'.
  destruct (H2 (r + i) (c + j) (r + i') (c + j'))%nat; auto; try lia; exact Logic.I.
Qed.
Lemma disjoint_sub : forall (S1 S2 S1' S2' : cellset), disjoint S1 S2 -> (forall a, S1' a -> S1 a) -> (forall a, S2' a -> S2 a) -> disjoint S1' S2'.
Proof. intros S1 S2 S1' S2' H H1 H2 a K1 K2. apply (H a); auto. Qed.
Lemma allocated_sub : forall (m : mem O) (S S' : cellset), allocated m S -> (forall a, S' a -> S a) -> allocated m S'.
Proof. intros m S S' H H1 a K. apply H; auto. Qed.

Ltac in_part := let c := fresh in let H := fresh in intros c H; first
  [ exact H | eapply sub_m_cells_on; [| | |exact H]; simpl; auto; lia | eapply sub_m_cells; [| |exact H]; simpl; lia | eapply sub_v_cells; [|exact H]; simpl; lia ].
Ltac dsub := match goal with H : disjoint _ _ |- _ => solve [eapply disjoint_sub; [exact H|in_part|in_part]] end.

(** * Cutting the summation index *)
Lemma sum_cut : forall (s : O) n k f, k <= n -> sum_from s 0 n f = sum_from (sum_from s 0 k f) 0 (n - k) (fun j => f (k + j)%nat).
Proof.
  intros s n k f H. replace n with (k + (n - k))%nat at 1 by lia. rewrite sum_from_app. rewrite (@sum_from_shift _ _ 0 k).
  apply sum_from_ext. intros j _. f_equal. lia.
Qed.
Lemma gemv_inner : forall (m : mem O) A x y a f k, k <= ext1 A ->
  vext x = ext1 A -> vext y = ext0 A ->
  mat_holds m A a -> vec_holds m x f -> vwritable y -> allocated m (vcells y) ->
  disjoint (mcells A) (vcells y) -> disjoint (vcells x) (vcells y) ->
  agree (matrix_vector_product A x y)
    (bind (matrix_vector_product (sub_m A 0 (ext0 A) 0 k) (sub_v x 0 k) y)
      (fun _ => matrix_vector_product_upd (sub_m A 0 (ext0 A) k (ext1 A - k)) (sub_v x k (vext x - k)) y y)) m.
Proof.
  intros m A x y a f k Hk Hx Hy HA Hf Hw Hal Hd1 Hd2.
  eapply agree_v with (z := y); [apply Hw|apply gemv_ok; eauto|].
  apply wp_bind. eapply wp_conseq.
  { eapply gemv_ok with (a := fun i j => a i j) (f := f); eauto; simpl; try lia.
    - apply (@sub_m_holds m A a 0 (ext0 A) 0 k); auto; lia.
    - apply (@sub_v_holds m x f 0 k); auto; lia.
    - dsub.
    - dsub. }
  intros [] m1 [K1 K2]. simpl in K1.
  assert (mat_holds m1 A a) as HA1 by (eapply mat_holds_frame; eauto).
  assert (vec_holds m1 x f) as Hf1 by (eapply vec_holds_frame; eauto).
  eapply wp_conseq.
  { eapply gemv_upd_ok with (a := fun i j => a i (k + j)%nat) (f := fun j => f (k + j)%nat) (g := fun i => bigsum k (fun j => a i j * f j)); simpl; eauto; try lia.
    - apply (@sub_m_holds m1 A a 0 (ext0 A) k (ext1 A - k)); auto; lia.
    - apply (@sub_v_holds m1 x f k (vext x - k)); auto; lia.
    - eapply vec_holds_alloc; eauto.
    - dsub.
    - dsub.
    - right. intros i Hi; reflexivity. }
  intros [] m2 [K3 K4]. split; [|eapply changes_only_trans; eauto]. simpl in K3.
  eapply vec_holds_ext; [|exact K3]. intros i Hi. cbv beta. unfold bigsum. rewrite (@sum_cut zero (ext1 A) k); auto.
Qed.
Lemma gemv_upd_inner : forall (m : mem O) A x y z a f g k, k <= ext1 A ->
  vext x = ext1 A -> vext y = ext0 A -> vext z = ext0 A ->
  mat_holds m A a -> vec_holds m x f -> vec_holds m y g -> vwritable z -> allocated m (vcells z) ->
  disjoint (mcells A) (vcells z) -> disjoint (vcells x) (vcells z) -> disjoint_or_aligned_v y z ->
  agree (matrix_vector_product_upd A x y z)
    (bind (matrix_vector_product_upd (sub_m A 0 (ext0 A) 0 k) (sub_v x 0 k) y z)
      (fun _ => matrix_vector_product_upd (sub_m A 0 (ext0 A) k (ext1 A - k)) (sub_v x k (vext x - k)) z z)) m.
Proof.
  intros m A x y z a f g k Hk Hx Hy Hz HA Hf Hg Hw Hal Hd1 Hd2 Hd3.
  eapply agree_v with (z := z); [apply Hw|eapply gemv_upd_ok; eauto|].
  apply wp_bind. eapply wp_conseq.
  { eapply gemv_upd_ok with (a := fun i j => a i j) (f := f) (g := g); eauto; simpl; try lia.
    - apply (@sub_m_holds m A a 0 (ext0 A) 0 k); auto; lia.
    - apply (@sub_v_holds m x f 0 k); auto; lia.
    - dsub.
    - dsub. }
  intros [] m1 [K1 K2]. simpl in K1.
  assert (mat_holds m1 A a) as HA1 by (eapply mat_holds_frame; eauto).
  assert (vec_holds m1 x f) as Hf1 by (eapply vec_holds_frame; eauto).
  eapply wp_conseq.
  { eapply gemv_upd_ok with (a := fun i j => a i (k + j)%nat) (f := fun j => f (k + j)%nat) (g := fun i => sum_from (g i) 0 k (fun j => a i j * f j)); simpl; eauto; try lia.
    - apply (@sub_m_holds m1 A a 0 (ext0 A) k (ext1 A - k)); auto; lia.
    - apply (@sub_v_holds m1 x f k (vext x - k)); auto; lia.
    - eapply vec_holds_alloc; eauto.
    - dsub.
    - dsub.
    - right. intros i Hi; reflexivity. }
  intros [] m2 [K3 K4]. split; [|eapply changes_only_trans; eauto]. simpl in K3.
  eapply vec_holds_ext; [|exact K3]. intros i Hi. cbv beta. rewrite (@sum_cut (g i) (ext1 A) k); auto.
Qed.
Lemma gemm_inner : forall (m : mem O) A B C a b k, k <= ext1 A ->
  ext0 C = ext0 A -> ext1 A = ext0 B -> ext1 C = ext1 B ->
  mat_holds m A a -> mat_holds m B b -> mwritable C -> allocated m (mcells C) ->
  disjoint (mcells A) (mcells C) -> disjoint (mcells B) (mcells C) ->
  agree (matrix_product A B C)
    (bind (matrix_product (sub_m A 0 (ext0 A) 0 k) (sub_m B 0 k 0 (ext1 B)) C)
      (fun _ => matrix_product_upd (sub_m A 0 (ext0 A) k (ext1 A - k)) (sub_m B k (ext0 B - k) 0 (ext1 B)) C C)) m.
Proof.
  intros m A B C a b k Hk E1 E2 E3 HA HB Hw Hal Hd1 Hd2.
  eapply agree_m with (C := C) (P := all2); [apply all2_dec|apply Hw|apply gemm_ok; eauto|].
  apply wp_bind. eapply wp_conseq.
  { eapply gemm_ok with (a := fun i j => a i j) (b := b); eauto; simpl; try lia.
    - apply (@sub_m_holds m A a 0 (ext0 A) 0 k); auto; lia.
    - apply (@sub_m_holds m B b 0 k 0 (ext1 B)); auto; lia.
    - dsub.
    - dsub. }
  intros [] m1 [K1 K2]. simpl in K1.
  assert (mat_holds m1 A a) as HA1 by (eapply mat_holds_frame; eauto).
  assert (mat_holds m1 B b) as HB1 by (eapply mat_holds_frame; eauto).
  eapply wp_conseq.
  { eapply gemm_upd_ok with (a := fun i j => a i (k + j)%nat) (b := fun i j => b (k + i)%nat j) (e := fun i j => bigsum k (fun l => a i l * b l j)); simpl; eauto; try lia.
    - apply (@sub_m_holds m1 A a 0 (ext0 A) k (ext1 A - k)); auto; lia.
    - apply (@sub_m_holds m1 B b k (ext0 B - k) 0 (ext1 B)); auto; lia.
    - eapply mat_holds_alloc; eauto.
    - dsub.
    - dsub.
    - right. intros i j Hi Hj; reflexivity. }
  intros [] m2 [K3 K4]. split; [|eapply changes_only_trans; eauto]. simpl in K3.
  eapply mat_holds_on_ext; [|exact K3]. intros i j Hi Hj _. cbv beta. unfold bigsum. rewrite (@sum_cut zero (ext1 A) k); auto.
Qed.
Lemma gemm_upd_inner : forall (m : mem O) A B E C a b e k, k <= ext1 A ->
  ext0 C = ext0 A -> ext1 A = ext0 B -> ext1 C = ext1 B -> ext0 E = ext0 C -> ext1 E = ext1 C ->
  mat_holds m A a -> mat_holds m B b -> mat_holds m E e -> mwritable C -> allocated m (mcells C) ->
  disjoint (mcells A) (mcells C) -> disjoint (mcells B) (mcells C) -> disjoint_or_aligned_m E C ->
  agree (matrix_product_upd A B E C)
    (bind (matrix_product_upd (sub_m A 0 (ext0 A) 0 k) (sub_m B 0 k 0 (ext1 B)) E C)
      (fun _ => matrix_product_upd (sub_m A 0 (ext0 A) k (ext1 A - k)) (sub_m B k (ext0 B - k) 0 (ext1 B)) C C)) m.
Proof.
  intros m A B E C a b e k Hk E1 E2 E3 E4 E5 HA HB HE Hw Hal Hd1 Hd2 Hd3.
  eapply agree_m with (C := C) (P := all2); [apply all2_dec|apply Hw|eapply gemm_upd_ok; eauto|].
  apply wp_bind. eapply wp_conseq.
  { eapply gemm_upd_ok with (a := fun i j => a i j) (b := b) (e := e); eauto; simpl; try lia.
    - apply (@sub_m_holds m A a 0 (ext0 A) 0 k); auto; lia.
    - apply (@sub_m_holds m B b 0 k 0 (ext1 B)); auto; lia.
    - dsub.
    - dsub. }
  intros [] m1 [K1 K2]. simpl in K1.
  assert (mat_holds m1 A a) as HA1 by (eapply mat_holds_frame; eauto).
  assert (mat_holds m1 B b) as HB1 by (eapply mat_holds_frame; eauto).
  eapply wp_conseq.
  { eapply gemm_upd_ok with (a := fun i j => a i (k + j)%nat) (b := fun i j => b (k + i)%nat j) (e := fun i j => sum_from (e i j) 0 k (fun l => a i l * b l j)); simpl; eauto; try lia.
    - apply (@sub_m_holds m1 A a 0 (ext0 A) k (ext1 A - k)); auto; lia.
    - apply (@sub_m_holds m1 B b k (ext0 B - k) 0 (ext1 B)); auto; lia.
    - eapply mat_holds_alloc; eauto.
    - dsub.
    - dsub.
    - right. intros i j Hi Hj; reflexivity. }
  intros [] m2 [K3 K4]. split; [|eapply changes_only_trans; eauto]. simpl in K3.
  eapply mat_holds_on_ext; [|exact K3]. intros i j Hi Hj _. cbv beta. rewrite (@sum_cut (e i j) (ext1 A) k); auto.
Qed.
(** * Cutting the columns of the result *)
Lemma gemm_cols : forall (m : mem O) A B C a b k, k <= ext1 C ->
  ext0 C = ext0 A -> ext1 A = ext0 B -> ext1 C = ext1 B ->
  mat_holds m A a -> mat_holds m B b -> mwritable C -> allocated m (mcells C) ->
  disjoint (mcells A) (mcells C) -> disjoint (mcells B) (mcells C) ->
  agree (matrix_product A B C)
    (bind (matrix_product A (sub_m B 0 (ext0 B) 0 k) (sub_m C 0 (ext0 C) 0 k))
      (fun _ => matrix_product A (sub_m B 0 (ext0 B) k (ext1 B - k)) (sub_m C 0 (ext0 C) k (ext1 C - k)))) m.
Proof.
  intros m A B C a b k Hk E1 E2 E3 HA HB Hw Hal Hd1 Hd2.
  eapply agree_m with (C := C) (P := all2); [apply all2_dec|apply Hw|apply gemm_ok; eauto|].
  assert (S1 : forall c, mcells (sub_m C 0 (ext0 C) 0 k) c -> mcells C c) by (intros c; apply sub_m_cells; lia).
  assert (S2 : forall c, mcells (sub_m C 0 (ext0 C) k (ext1 C - k)) c -> mcells C c) by (intros c; apply sub_m_cells; lia).
  apply wp_bind. eapply wp_conseq.
  { eapply gemm_ok with (a := a) (b := b); eauto; simpl; try lia.
    - apply (@sub_m_holds m B b 0 (ext0 B) 0 k); auto; lia.
    - apply sub_m_writable; auto; lia.
    - eapply allocated_sub; eauto.
    - dsub.
    - dsub. }
  intros [] m1 [K1 K2].
  assert (changes_only m m1 (mcells C)) as K2' by (eapply changes_only_mono; [|exact K2]; auto).
  assert (mat_holds m1 A a) as HA1 by (eapply mat_holds_frame; eauto).
  assert (mat_holds m1 B b) as HB1 by (eapply mat_holds_frame; eauto).
  eapply wp_conseq.
  { eapply gemm_ok with (a := a) (b := fun i j => b i (k + j)%nat); simpl; eauto; try lia.
    - apply (@sub_m_holds m1 B b 0 (ext0 B) k (ext1 B - k)); auto; lia.
    - apply sub_m_writable; auto; lia.
    - intros c Hc E. destruct Hc as (i & j & Hi & Hj & _ & ->). simpl in Hi, Hj.
      rewrite K2 in E; [apply (Hal (maddr C i (k + j))); [exists i, (k + j)%nat; repeat split; auto; lia|exact E]|].
      intros (i' & j' & Hi' & Hj' & _ & Ec). simpl in Hi', Hj'. destruct Hw as [_ Hw].
      destruct (Hw i (k + j)%nat i' j'); auto; try lia; exact Logic.I.
    - dsub.
    - dsub. }
  intros [] m2 [K3 K4]. split; [|eapply changes_only_trans; [exact K2'|eapply changes_only_mono; [|exact K4]; auto]].
  intros i j Hi Hj _. destruct (le_lt_dec k j) as [Hjk|Hjk].
  - destruct (K3 i (j - k)%nat) as (v & V1 & V2); simpl; [lia|lia|exact Logic.I|]. exists v. split.
    + replace (maddr C i j) with (maddr (sub_m C 0 (ext0 C) k (ext1 C - k)) i (j - k)); [exact V1|]. unfold maddr; simpl. do 2 f_equal. lia.
    + simpl in V2. rewrite V2. apply sum_from_ext. intros l _. do 2 f_equal. lia.
  - destruct (K1 i j) as (v & V1 & V2); simpl; [lia|lia|exact Logic.I|]. exists v. split; [|exact V2].
    change (maddr C i j) with (maddr (sub_m C 0 (ext0 C) 0 k) i j). rewrite K4; auto.
    intros (i' & j' & Hi' & Hj' & _ & Ec). simpl in Hi', Hj'. destruct Hw as [_ Hw].
    destruct (Hw i j i' (k + j')%nat); auto; try lia; exact Logic.I.
Qed.
Lemma syrk_inner : forall (m : mem O) A C t a c k, k <= ext1 A ->
  ext0 C = ext1 C -> ext0 A = ext0 C -> 
  mat_holds m A a -> mat_holds_on m C (in_tri t) c -> mwritable_on C (in_tri t) ->
  disjoint (mcells A) (mcells_on C (in_tri t)) -> 
  agree (symmetric_matrix_rank_k_update A C t)
    (bind (symmetric_matrix_rank_k_update (sub_m A 0 (ext0 A) 0 k) C t) (fun _ => (symmetric_matrix_rank_k_update (sub_m A 0 (ext0 A) k (ext1 A - k)) C t))) m.
Proof.
  intros m A C t a c k Hk E1 E2 HA HC Hw Hd1.
  eapply agree_m with (C := C) (P := in_tri t); [apply in_tri_dec|apply Hw|apply syrk_ok with (a := a) (c := c); eauto|].
  apply wp_bind. eapply wp_conseq.
  { eapply syrk_ok with (a := fun i j => a i j) (c := c); eauto; simpl; try lia.
    - apply (@sub_m_holds m A a 0 (ext0 A) 0 k); auto; lia.
    
    - dsub.
     }
  intros [] m1 [K1 K2]. simpl in K1.
  assert (mat_holds m1 A a) as HA1 by (eapply mat_holds_frame; eauto).
  
  eapply wp_conseq.
  { eapply syrk_ok with (a := fun i j => a i (k + j)%nat) ; [..|exact K1| |]; simpl; eauto; try lia.
    - apply (@sub_m_holds m1 A a 0 (ext0 A) k (ext1 A - k)); auto; lia.
    
    - dsub.
     }
  intros [] m2 [K3 K4]. split; [|eapply changes_only_trans; eauto]. simpl in K3.
  eapply mat_holds_on_ext; [|exact K3]. intros i j Hi Hj _. cbv beta. rewrite (@sum_cut (c i j) (ext1 A) k); auto.
Qed.
Lemma syrk_alpha_inner : forall (m : mem O) alpha A C t a c k, k <= ext1 A ->
  ext0 C = ext1 C -> ext0 A = ext0 C -> 
  mat_holds m A a -> mat_holds_on m C (in_tri t) c -> mwritable_on C (in_tri t) ->
  disjoint (mcells A) (mcells_on C (in_tri t)) -> 
  agree (symmetric_matrix_rank_k_update_alpha alpha A C t)
    (bind (symmetric_matrix_rank_k_update_alpha alpha (sub_m A 0 (ext0 A) 0 k) C t) (fun _ => (symmetric_matrix_rank_k_update_alpha alpha (sub_m A 0 (ext0 A) k (ext1 A - k)) C t))) m.
Proof.
  intros m alpha A C t a c k Hk E1 E2 HA HC Hw Hd1.
  eapply agree_m with (C := C) (P := in_tri t); [apply in_tri_dec|apply Hw|apply syrk_alpha_ok with (a := a) (c := c); eauto|].
  apply wp_bind. eapply wp_conseq.
  { eapply syrk_alpha_ok with (a := fun i j => a i j) (c := c); eauto; simpl; try lia.
    - apply (@sub_m_holds m A a 0 (ext0 A) 0 k); auto; lia.
    
    - dsub.
     }
  intros [] m1 [K1 K2]. simpl in K1.
  assert (mat_holds m1 A a) as HA1 by (eapply mat_holds_frame; eauto).
  
  eapply wp_conseq.
  { eapply syrk_alpha_ok with (a := fun i j => a i (k + j)%nat) ; [..|exact K1| |]; simpl; eauto; try lia.
    - apply (@sub_m_holds m1 A a 0 (ext0 A) k (ext1 A - k)); auto; lia.
    
    - dsub.
     }
  intros [] m2 [K3 K4]. split; [|eapply changes_only_trans; eauto]. simpl in K3.
  eapply mat_holds_on_ext; [|exact K3]. intros i j Hi Hj _. cbv beta. rewrite (@sum_cut (c i j) (ext1 A) k); auto.
Qed.
Lemma syr2k_inner : forall (m : mem O) A B C t a b c k, k <= ext1 A ->
  ext0 C = ext1 C -> ext0 A = ext0 C -> ext0 B = ext0 C -> ext1 B = ext1 A -> 
  mat_holds m A a -> mat_holds m B b -> mat_holds_on m C (in_tri t) c -> mwritable_on C (in_tri t) ->
  disjoint (mcells A) (mcells_on C (in_tri t)) -> disjoint (mcells B) (mcells_on C (in_tri t)) ->
  agree (symmetric_matrix_rank_2k_update A B C t)
    (bind (symmetric_matrix_rank_2k_update (sub_m A 0 (ext0 A) 0 k) (sub_m B 0 (ext0 B) 0 k) C t) (fun _ => (symmetric_matrix_rank_2k_update (sub_m A 0 (ext0 A) k (ext1 A - k)) (sub_m B 0 (ext0 B) k (ext1 B - k)) C t))) m.
Proof.
  intros m A B C t a b c k Hk E1 E2 E3 E4 HA HB HC Hw Hd1 Hd2.
  eapply agree_m with (C := C) (P := in_tri t); [apply in_tri_dec|apply Hw|apply syr2k_ok with (a := a) (b := b) (c := c); eauto|].
  apply wp_bind. eapply wp_conseq.
  { eapply syr2k_ok with (a := fun i j => a i j) (b := fun i j => b i j) (c := c); eauto; simpl; try lia.
    - apply (@sub_m_holds m A a 0 (ext0 A) 0 k); auto; lia.
    - apply (@sub_m_holds m B b 0 (ext0 B) 0 k); auto; lia.
    - dsub.
    - dsub. }
  intros [] m1 [K1 K2]. simpl in K1.
  assert (mat_holds m1 A a) as HA1 by (eapply mat_holds_frame; eauto).
  assert (mat_holds m1 B b) as HB1 by (eapply mat_holds_frame; eauto).
  eapply wp_conseq.
  { eapply syr2k_ok with (a := fun i j => a i (k + j)%nat) (b := fun i j => b i (k + j)%nat); [..|exact K1| | |]; simpl; eauto; try lia.
    - apply (@sub_m_holds m1 A a 0 (ext0 A) k (ext1 A - k)); auto; lia.
    - apply (@sub_m_holds m1 B b 0 (ext0 B) k (ext1 B - k)); auto; lia.
    - dsub.
    - dsub. }
  intros [] m2 [K3 K4]. split; [|eapply changes_only_trans; eauto]. simpl in K3.
  eapply mat_holds_on_ext; [|exact K3]. intros i j Hi Hj _. cbv beta. rewrite (@sum_cut (c i j) (ext1 A) k); auto.
Qed.

(** * Lower triangular systems, by blocks *)
Lemma diffs_cut : forall (s : O) n k f, k <= n -> diffs s 0 n f = diffs (diffs s 0 k f) 0 (n - k) (fun j => f (k + j)%nat).
Proof.
  intros s n k f H. unfold diffs. replace n with (k + (n - k))%nat at 1 by lia. rewrite seq_app, fold_left_app. simpl.
  generalize (fold_left (fun s0 k0 => s0 - f k0) (seq 0 k) s). intros s0.
  replace (seq k (n - k)) with (map (fun j => (k + j)%nat) (seq 0 (n - k))).
  - generalize (seq 0 (n - k)). intros l. revert s0. induction l as [|h l IH]; intros s0; simpl; auto.
  - assert (forall p o, map (fun j => (k + j)%nat) (seq o p) = seq (k + o) p) as E.
    { induction p as [|p IH]; intros o; simpl; auto. rewrite IH. do 2 f_equal. lia. }
    rewrite E. f_equal. lia.
Qed.
Lemma sum_diffs : forall neg (s : O) n (a f : nat -> O), negates neg -> sum_from s 0 n (fun j => (neg * a j) * f j) = diffs s 0 n (fun j => a j * f j).
Proof.
  intros neg s n a f H. unfold sum_from, diffs. generalize (seq 0 n). intros l. revert s. induction l as [|h l IH]; intros s; simpl; auto.
  rewrite H. apply IH.
Qed.
Lemma subst_join : forall divide d n k (a : nat -> nat -> O) b f1 f2 h, k <= n ->
  (forall i, i < k -> f1 i = subst_value divide Lower d k a b f1 i) ->
  (forall i, i < n - k -> h i = diffs (b (k + i)%nat) 0 k (fun j => a (k + i)%nat j * f1 j)) ->
  (forall i, i < n - k -> f2 i = subst_value divide Lower d (n - k) (fun i j => a (k + i)%nat (k + j)%nat) h f2 i) ->
  forall i, i < n -> (if i <? k then f1 i else f2 (i - k)%nat)
    = subst_value divide Lower d n a b (fun i => if i <? k then f1 i else f2 (i - k)%nat) i.
Proof.
  intros divide d n k a b f1 f2 h Hk H1 Hh H2 i Hi. destruct (Nat.ltb_spec i k) as [L|L].
  - rewrite H1 by auto. unfold subst_value. simpl.
    rewrite (@diffs_ext _ (b i) 0 i (fun j => a i j * f1 j) (fun j => a i j * (if j <? k then f1 j else f2 (j - k)%nat))); auto.
    intros j Hj. destruct (Nat.ltb_spec j k); auto; lia.
  - rewrite H2 by lia. unfold subst_value. simpl. rewrite Hh by lia.
    replace (k + (i - k))%nat with i by lia.
    rewrite (@diffs_cut (b i) i k) by lia.
    rewrite (@diffs_ext _ (b i) 0 k (fun j => a i j * f1 j) (fun j => a i j * (if j <? k then f1 j else f2 (j - k)%nat)))
      by (intros j Hj; destruct (Nat.ltb_spec j k); auto; lia).
    rewrite (@diffs_ext _ _ 0 (i - k) (fun j => a i (k + j)%nat * f2 j) (fun j => a i (k + j)%nat * (if k + j <? k then f1 (k + j)%nat else f2 (k + j - k)%nat))); auto.
    intros j Hj. destruct (Nat.ltb_spec (k + j) k); [lia|]. do 2 f_equal. lia.
Qed.
Lemma fits_le : forall ty n k, fits ty n -> k <= n -> fits ty k.
Proof. intros ty n k [H1 H2] H. split; lia. Qed.
Lemma part_align_v : forall (B X : vec O) lo n, lo + n <= vext B -> lo + n <= vext X -> disjoint_or_aligned_v B X -> disjoint_or_aligned_v (sub_v B lo n) (sub_v X lo n).
Proof.
  intros B X lo n H1 H2 [H|H].
  - left. dsub.
  - right. intros i Hi. simpl in Hi. apply (H (lo + i)%nat). lia.
Qed.
Lemma part_align_m : forall (B X : mat O) r n c k, r + n <= ext0 B -> r + n <= ext0 X -> c + k <= ext1 B -> c + k <= ext1 X ->
  disjoint_or_aligned_m B X -> disjoint_or_aligned_m (sub_m B r n c k) (sub_m X r n c k).
Proof.
  intros B X r n c k H1 H2 H3 H4 [H|H].
  - left. dsub.
  - right. intros i j Hi Hj. simpl in Hi, Hj. apply (H (r + i)%nat (c + j)%nat); lia.
Qed.
Lemma parts_disjoint_v : forall (X : vec O) k n, k <= n -> vext X = n -> vwritable X -> disjoint (vcells (sub_v X 0 k)) (vcells (sub_v X k (n - k))).
Proof.
  intros X k n Hk HX [_ Hw] c (i & Hi & ->) (j & Hj & E). simpl in Hi, Hj. assert (i = k + j)%nat; [|lia]. apply Hw; auto; lia.
Qed.
Lemma parts_disjoint_m : forall (X : mat O) k n p, k <= n -> ext0 X = n -> ext1 X = p -> mwritable X ->
  disjoint (mcells (sub_m X 0 k 0 p)) (mcells (sub_m X k (n - k) 0 p)).
Proof.
  intros X k n p Hk HX HX' [_ Hw] c (i & j & Hi & Hj & _ & ->) (i' & j' & Hi' & Hj' & _ & E). simpl in Hi, Hj, Hi', Hj'.
  assert (i = k + i' /\ j = j')%nat as [? ?]; [|lia]. apply Hw; auto; try lia; exact Logic.I.
Qed.
Lemma disjoint_sym : forall S1 S2, disjoint S1 S2 -> disjoint S2 S1.
Proof. intros S1 S2 H a H1 H2. apply (H a); auto. Qed.
(** The second block of the right-hand side survives a change of the first block of the result. *)
Lemma rest_holds_v : forall (m m1 : mem O) B X b k n, k <= n -> vext B = n -> vext X = n -> vwritable X -> disjoint_or_aligned_v B X ->
  vec_holds m B b -> changes_only m m1 (vcells (sub_v X 0 k)) -> vec_holds m1 (sub_v B k (n - k)) (fun i => b (k + i)%nat).
Proof.
  intros m m1 B X b k n Hk HB HX Hw Hd Hb Hc. eapply vec_holds_frame; [apply sub_v_holds; eauto; lia|exact Hc|].
  destruct Hd as [Hd|Hd]; [dsub|]. intros c (i & Hi & ->) H. simpl in Hi.
  apply (@parts_disjoint_v X k n Hk HX Hw _ H). exists i. split; [simpl; lia|]. apply (Hd (k + i)%nat). lia.
Qed.
Lemma rest_holds_m : forall (m m1 : mem O) B X b k n p, k <= n -> ext0 B = n -> ext0 X = n -> ext1 B = p -> ext1 X = p -> mwritable X -> disjoint_or_aligned_m B X ->
  mat_holds m B b -> changes_only m m1 (mcells (sub_m X 0 k 0 p)) -> mat_holds m1 (sub_m B k (n - k) 0 p) (fun i j => b (k + i)%nat j).
Proof.
  intros m m1 B X b k n p Hk HB HX HB' HX' Hw Hd Hb Hc. eapply mat_holds_frame; [apply (@sub_m_holds m B b k (n - k) 0 p); eauto; lia|exact Hc|].
  destruct Hd as [Hd|Hd]; [dsub|]. intros c (i & j & Hi & Hj & _ & ->) H. simpl in Hi, Hj.
  apply (@parts_disjoint_m X k n p Hk HX HX' Hw _ H). exists i, j. split; [simpl; lia|]. split; [simpl; lia|]. split; [exact Logic.I|]. apply (Hd (k + i)%nat j); lia.
Qed.
Lemma trsv_blocks : forall ty neg (m : mem O) divide A d B X a b k,
  negates neg -> k <= ext0 A -> fits ty (ext0 A) ->
  ext0 A = ext1 A -> vext B = ext0 A -> vext X = ext0 A ->
  mat_holds_on m A (stored Lower d) a -> vec_holds m B b -> vwritable X -> allocated m (vcells X) ->
  disjoint (mcells_on A (stored Lower d)) (vcells X) -> disjoint_or_aligned_v B X ->
  agree (triangular_matrix_vector_solve_with ty divide A Lower d B X)
    (bind (triangular_matrix_vector_solve_with ty divide (sub_m A 0 k 0 k) Lower d (sub_v B 0 k) (sub_v X 0 k)) (fun _ =>
     bind (matrix_vector_product_upd (scaled_m neg (sub_m A k (ext0 A - k) 0 k)) (sub_v X 0 k) (sub_v B k (ext0 A - k)) (sub_v X k (ext0 A - k))) (fun _ =>
     triangular_matrix_vector_solve_with ty divide (sub_m A k (ext0 A - k) k (ext0 A - k)) Lower d (sub_v X k (ext0 A - k)) (sub_v X k (ext0 A - k))))) m.
Proof.
  intros ty neg m divide A d B X a b k Hneg Hk Hfit Hsq HB HX HA Hb Hw Hal Hd1 Hd2.
  destruct (@trsv_subst O ty m divide A Lower d B X a b) as ([] & mm & R & (f & F1 & F2) & F3); auto; try discriminate.
  eapply agree_v with (z := X) (g := f); [apply Hw|exists tt, mm; auto|].
  assert (D12 : disjoint (vcells (sub_v X 0 k)) (vcells (sub_v X k (ext0 A - k)))) by (apply parts_disjoint_v; auto).
  assert (P21 : forall i j, i < ext0 A - k -> j < k -> all2 i j -> stored Lower d (k + i) (0 + j)).
  { intros i j Hi Hj _. unfold stored. simpl. split; [lia|]. intros; lia. }
  assert (P22 : forall i j, i < ext0 A - k -> j < ext0 A - k -> stored Lower d i j -> stored Lower d (k + i) (k + j)).
  { intros i j Hi Hj [S1 S2]. simpl in S1. split; [simpl; lia|]. intros E; specialize (S2 E); lia. }
  assert (X1 : forall c, vcells (sub_v X 0 k) c -> vcells X c) by (intros c; apply sub_v_cells; lia).
  assert (X2 : forall c, vcells (sub_v X k (ext0 A - k)) c -> vcells X c) by (intros c; apply sub_v_cells; lia).
  apply wp_bind. eapply wp_conseq.
  { eapply trsv_subst with (a := a) (b := b); simpl; eauto; try lia; try discriminate.
    - eapply fits_le; eauto.
    - apply (@sub_m_holds_on m A (stored Lower d) (stored Lower d) a 0 k 0 k); auto; lia.
    - apply (@sub_v_holds m B b 0 k); auto; lia.
    - apply sub_v_writable; auto; lia.
    - eapply allocated_sub; eauto.
    - eapply disjoint_sub; [exact Hd1|intros c Hc; eapply sub_m_cells_on; [| | |exact Hc]; auto; lia|auto].
    - apply part_align_v; auto; lia. }
  intros [] m1 [(f1 & G1 & G2) G3]. simpl in G2.
  assert (G3' : changes_only m m1 (vcells X)) by (eapply changes_only_mono; [|exact G3]; auto).
  assert (A1 : mat_holds_on m1 A (stored Lower d) a) by (eapply mat_holds_frame; eauto).
  assert (V2 : allocated m1 (vcells (sub_v X k (ext0 A - k)))).
  { intros c Hc. rewrite G3; [apply Hal; auto|]. intros H. apply (D12 c); auto. }
  apply wp_bind. eapply wp_conseq.
  { eapply gemv_upd_ok with (a := fun i j => neg * a (k + i)%nat j) (f := f1) (g := fun i => b (k + i)%nat); simpl; eauto; try lia.
    - apply scaled_m_holds. apply (@sub_m_holds_on m1 A (stored Lower d) all2 a k (ext0 A - k) 0 k); auto; lia.
    - eapply rest_holds_v; eauto.
    - apply sub_v_writable; auto; lia.
    - eapply disjoint_sub; [exact Hd1|intros c Hc; eapply (@sub_m_cells_on A (stored Lower d) all2 k (ext0 A - k) 0 k); eauto; lia|auto].
    - apply part_align_v; auto; lia. }
  intros [] m2 [K1 K2]. simpl in K1.
  assert (K2' : changes_only m1 m2 (vcells X)) by (eapply changes_only_mono; [|exact K2]; auto).
  assert (A2 : mat_holds_on m2 A (stored Lower d) a) by (eapply mat_holds_frame; eauto).
  eapply wp_conseq.
  { eapply trsv_subst with (a := fun i j => a (k + i)%nat (k + j)%nat); [..|exact K1| | | |]; simpl; eauto; try lia; try discriminate.
    - eapply fits_le; eauto. lia.
    - apply (@sub_m_holds_on m2 A (stored Lower d) (stored Lower d) a k (ext0 A - k) k (ext0 A - k)); auto; lia.
    - apply sub_v_writable; auto; lia.
    - eapply vec_holds_alloc; eauto.
    - eapply disjoint_sub; [exact Hd1|intros c Hc; eapply (@sub_m_cells_on A (stored Lower d) (stored Lower d) k (ext0 A - k) k (ext0 A - k)); eauto; lia|auto].
    - right. intros i Hi; reflexivity. }
  intros [] m3 [(f2 & L1 & L2) L3]. simpl in L2.
  assert (L3' : changes_only m2 m3 (vcells X)) by (eapply changes_only_mono; [|exact L3]; auto).
  split; [|eapply changes_only_trans; [exact G3'|eapply changes_only_trans; [exact K2'|exact L3']]].
  assert (Hf : forall i, i < ext0 A -> f i = if i <? k then f1 i else f2 (i - k)%nat).
  { apply (@subst_unique _ divide Lower d (ext0 A) a b); auto. intros i Hi.
    apply (@subst_join divide d (ext0 A) k a b f1 f2 (fun i => sum_from (b (k + i)%nat) 0 k (fun j => neg * a (k + i)%nat j * f1 j))); auto.
    intros i0 Hi0. apply sum_diffs; auto. }
  intros i Hi. destruct (Nat.ltb_spec i k) as [L|L].
  - assert (vec_holds m3 (sub_v X 0 k) f1) as Q.
    { eapply vec_holds_frame; [|exact L3|exact D12]. eapply vec_holds_frame; [exact G1|exact K2|exact D12]. }
    destruct (Q i L) as (v & Q1 & Q2). exists v. split; [exact Q1|]. rewrite Hf by lia. destruct (Nat.ltb_spec i k); [exact Q2|lia].
  - destruct (L1 (i - k)%nat) as (v & Q1 & Q2); [simpl; lia|]. exists v. split.
    + replace (vaddr X i) with (vaddr (sub_v X k (ext0 A - k)) (i - k)); [exact Q1|]. unfold vaddr; simpl. do 2 f_equal. lia.
    + rewrite Hf by lia. destruct (Nat.ltb_spec i k); [lia|exact Q2].
Qed.
Lemma trsm_blocks : forall ty neg (m : mem O) A d B X a b k,
  negates neg -> k <= ext0 A -> fits ty (ext0 A) ->
  ext0 A = ext1 A -> ext0 B = ext0 A -> ext0 X = ext0 A -> ext1 X = ext1 B ->
  mat_holds_on m A (stored Lower d) a -> mat_holds m B b -> mwritable X -> allocated m (mcells X) ->
  disjoint (mcells_on A (stored Lower d)) (mcells X) -> disjoint_or_aligned_m B X ->
  agree (triangular_matrix_matrix_left_solve ty A Lower d B X)
    (bind (triangular_matrix_matrix_left_solve ty (sub_m A 0 k 0 k) Lower d (sub_m B 0 k 0 (ext1 B)) (sub_m X 0 k 0 (ext1 B))) (fun _ =>
     bind (matrix_product_upd (scaled_m neg (sub_m A k (ext0 A - k) 0 k)) (sub_m X 0 k 0 (ext1 B)) (sub_m B k (ext0 A - k) 0 (ext1 B)) (sub_m X k (ext0 A - k) 0 (ext1 B))) (fun _ =>
     triangular_matrix_matrix_left_solve ty (sub_m A k (ext0 A - k) k (ext0 A - k)) Lower d (sub_m X k (ext0 A - k) 0 (ext1 B)) (sub_m X k (ext0 A - k) 0 (ext1 B))))) m.
Proof.
  intros ty neg m A d B X a b k Hneg Hk Hfit Hsq HB HX HX1 HA Hb Hw Hal Hd1 Hd2.
  destruct (@trsm_left_subst O ty m A Lower d B X a b) as ([] & mm & R & (f & F1 & F2) & F3); auto; try discriminate.
  eapply agree_m with (C := X) (P := all2) (g := f); [apply all2_dec|apply Hw|exists tt, mm; auto|].
  assert (D12 : disjoint (mcells (sub_m X 0 k 0 (ext1 B))) (mcells (sub_m X k (ext0 A - k) 0 (ext1 B)))) by (apply parts_disjoint_m; auto).
  assert (P21 : forall i j, i < ext0 A - k -> j < k -> all2 i j -> stored Lower d (k + i) (0 + j)).
  { intros i j Hi Hj _. unfold stored. simpl. split; [lia|]. intros; lia. }
  assert (P22 : forall i j, i < ext0 A - k -> j < ext0 A - k -> stored Lower d i j -> stored Lower d (k + i) (k + j)).
  { intros i j Hi Hj [S1 S2]. simpl in S1. split; [simpl; lia|]. intros E; specialize (S2 E); lia. }
  assert (X1 : forall c, mcells (sub_m X 0 k 0 (ext1 B)) c -> mcells X c) by (intros c; apply sub_m_cells; lia).
  assert (X2 : forall c, mcells (sub_m X k (ext0 A - k) 0 (ext1 B)) c -> mcells X c) by (intros c; apply sub_m_cells; lia).
  apply wp_bind. eapply wp_conseq.
  { eapply trsm_left_subst with (a := a) (b := b); simpl; eauto; try lia; try discriminate.
    - eapply fits_le; eauto.
    - apply (@sub_m_holds_on m A (stored Lower d) (stored Lower d) a 0 k 0 k); auto; lia.
    - apply (@sub_m_holds m B b 0 k 0 (ext1 B)); auto; lia.
    - apply sub_m_writable; auto; lia.
    - eapply allocated_sub; eauto.
    - eapply disjoint_sub; [exact Hd1|intros c Hc; eapply sub_m_cells_on; [| | |exact Hc]; auto; lia|auto].
    - apply part_align_m; auto; lia. }
  intros [] m1 [(f1 & G1 & G2) G3]. simpl in G2.
  assert (G3' : changes_only m m1 (mcells X)) by (eapply changes_only_mono; [|exact G3]; auto).
  assert (A1 : mat_holds_on m1 A (stored Lower d) a) by (eapply mat_holds_frame; eauto).
  assert (V2 : allocated m1 (mcells (sub_m X k (ext0 A - k) 0 (ext1 B)))).
  { intros c Hc. rewrite G3; [apply Hal; auto|]. intros H. apply (D12 c); auto. }
  apply wp_bind. eapply wp_conseq.
  { eapply gemm_upd_ok with (a := fun i j => neg * a (k + i)%nat j) (b := f1) (e := fun i j => b (k + i)%nat j); simpl; eauto; try lia.
    - apply scaled_m_holds. apply (@sub_m_holds_on m1 A (stored Lower d) all2 a k (ext0 A - k) 0 k); auto; lia.
    - eapply rest_holds_m with (X := X); eauto.
    - apply sub_m_writable; auto; lia.
    - eapply disjoint_sub; [exact Hd1|intros c Hc; eapply (@sub_m_cells_on A (stored Lower d) all2 k (ext0 A - k) 0 k); eauto; lia|auto].
    - apply part_align_m; auto; lia. }
  intros [] m2 [K1 K2]. simpl in K1.
  assert (K2' : changes_only m1 m2 (mcells X)) by (eapply changes_only_mono; [|exact K2]; auto).
  assert (A2 : mat_holds_on m2 A (stored Lower d) a) by (eapply mat_holds_frame; eauto).
  eapply wp_conseq.
  { eapply trsm_left_subst with (a := fun i j => a (k + i)%nat (k + j)%nat); [..|exact K1| | | |]; simpl; eauto; try lia; try discriminate.
    - eapply fits_le; eauto. lia.
    - apply (@sub_m_holds_on m2 A (stored Lower d) (stored Lower d) a k (ext0 A - k) k (ext0 A - k)); auto; lia.
    - apply sub_m_writable; auto; lia.
    - eapply mat_holds_alloc; eauto.
    - eapply disjoint_sub; [exact Hd1|intros c Hc; eapply (@sub_m_cells_on A (stored Lower d) (stored Lower d) k (ext0 A - k) k (ext0 A - k)); eauto; lia|auto].
    - right. intros i j Hi Hj; reflexivity. }
  intros [] m3 [(f2 & L1 & L2) L3]. simpl in L2.
  assert (L3' : changes_only m2 m3 (mcells X)) by (eapply changes_only_mono; [|exact L3]; auto).
  split; [|eapply changes_only_trans; [exact G3'|eapply changes_only_trans; [exact K2'|exact L3']]].
  assert (Hf : forall i j, i < ext0 A -> j < ext1 B -> f i j = if i <? k then f1 i j else f2 (i - k)%nat j).
  { intros i j Hi Hj. apply (@subst_unique _ div Lower d (ext0 A) a (fun l => b l j) (fun l => f l j) (fun l => if l <? k then f1 l j else f2 (l - k)%nat j)); auto.
    - intros l Hl. apply F2; lia.
    - intros l Hl.
      apply (@subst_join div d (ext0 A) k a (fun l => b l j) (fun l => f1 l j) (fun l => f2 l j) (fun i => sum_from (b (k + i)%nat j) 0 k (fun l => neg * a (k + i)%nat l * f1 l j))); auto.
      intros i0 Hi0. apply sum_diffs; auto. }
  intros i j Hi Hj _. destruct (Nat.ltb_spec i k) as [L|L].
  - assert (mat_holds m3 (sub_m X 0 k 0 (ext1 B)) f1) as Q.
    { eapply mat_holds_frame; [|exact L3|exact D12]. eapply mat_holds_frame; [exact G1|exact K2|exact D12]. }
    destruct (Q i j) as (v & Q1 & Q2); [exact L|simpl; lia|exact Logic.I|]. exists v. split; [exact Q1|]. rewrite Hf by lia. destruct (Nat.ltb_spec i k); [exact Q2|lia].
  - destruct (L1 (i - k)%nat j) as (v & Q1 & Q2); [simpl; lia|simpl; lia|exact Logic.I|]. exists v. split.
    + replace (maddr X i j) with (maddr (sub_m X k (ext0 A - k) 0 (ext1 B)) (i - k) j); [exact Q1|]. unfold maddr; simpl. do 2 f_equal. lia.
    + rewrite Hf by lia. destruct (Nat.ltb_spec i k); [lia|exact Q2].
Qed.
End Pf.

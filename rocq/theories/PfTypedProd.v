(** Products of mixed types. *)
From Coq Require Import List Arith ZArith Lia Bool.
From Verif Require Import Mem Scalar View Spec SpecT Wp Loops Sums PfBlas1 Blas2 PfBlas2 PfRank Blas3 PfBlas3 Proxy Typed TypedProd.
Import ListNotations.
Set Implicit Arguments.
Local Open Scope prog_scope.

Section Pf.
Variable L : cpp.
Variables z o : cval L.
Notation O := (typed_ops L z o).
Variable tY : ctype L.
Notation sums := (typed_sums L tY).

Lemma typed_sums_S : forall s n f, sums s (S n) f = cast L tY (cbin L Plus (sums s n f) (f n)).
Proof. intros. unfold typed_sums. rewrite seq_S, fold_left_app. reflexivity. Qed.

Lemma typed_copy_ok : forall (m : mem O) x y f,
  vext x = vext y -> vec_holds m x f -> vwritable y -> allocated m (vcells y) -> disjoint_or_aligned_v x y ->
  succeeds (typed_copy L z o tY x y) m (fun _ m' => vec_holds m' y (fun i => cast L tY (f i)) /\ changes_only m m' (vcells y)).
Proof.
  intros m x y f He Hx Hw Ha Hal. pose proof (alloc_vec_holds Ha) as Hy. eapply wp_conseq.
  { unfold typed_copy. apply (@wp_elems O) with (m0 := m) (x := y) (x0 := contents_v m y) (f := fun i => cast L tY (f i)); auto using vst_init.
    intros i m' g Hi Hst Hg. apply wp_bind. eapply (@wp_vget_alias O); eauto; try lia. eapply (@wp_vset O); eauto. }
  intros [] m' H. eapply vst_done; [exact H|]. intros; bcase.
Qed.
Lemma typed_scale_ok : forall (m : mem O) alpha x f, vec_holds m x f -> vwritable x ->
  succeeds (typed_scale L z o tY alpha x) m (fun _ m' =>
    vec_holds m' x (fun i => cast L tY (cbin L Times (f i) alpha)) /\ changes_only m m' (vcells x)).
Proof.
  intros m alpha x f Hx Hw. eapply wp_conseq.
  { unfold typed_scale. apply (@wp_elems O) with (m0 := m) (x := x) (x0 := f) (f := fun i => cast L tY (cbin L Times (f i) alpha)); auto using vst_init.
    intros i m' g Hi Hst Hg. apply wp_bind. eapply (@wp_vget O); [apply Hst| auto |]. rewrite Hg. eapply (@wp_vset O); eauto. }
  intros [] m' H. eapply vst_done; [exact H|]. intros; bcase.
Qed.
Lemma typed_add_ok : forall (m : mem O) x y v f g,
  vext x = vext v -> vext y = vext v -> vec_holds m x f -> vec_holds m y g ->
  vwritable v -> allocated m (vcells v) -> disjoint_or_aligned_v x v -> disjoint_or_aligned_v y v ->
  succeeds (typed_add L z o tY x y v) m (fun _ m' =>
    vec_holds m' v (fun i => cast L tY (cbin L Plus (f i) (g i))) /\ changes_only m m' (vcells v)).
Proof.
  intros m x y v f g Hex Hey Hx Hy Hw Ha Hal1 Hal2. pose proof (alloc_vec_holds Ha) as Hz. eapply wp_conseq.
  { unfold typed_add. apply (@wp_elems O) with (m0 := m) (x := v) (x0 := contents_v m v) (f := fun i => cast L tY (cbin L Plus (f i) (g i))); auto using vst_init.
    intros i m' h Hi Hst Hg. apply wp_bind. eapply (@wp_vget_alias O) with (x := x); eauto; try lia. apply wp_bind.
    eapply (@wp_vget_alias O) with (x := y); eauto; try lia. eapply (@wp_vset O); eauto. }
  intros [] m' H. eapply vst_done; [exact H|]. intros; bcase.
Qed.
Lemma typed_dot_ok : forall (m : mem O) x y f g init, vext x = vext y -> vec_holds m x f -> vec_holds m y g ->
  succeeds (typed_dot L z o tY x y init) m (fun r m' => r = sums init (vext x) (fun k => cbin L Times (f k) (g k)) /\ m' = m).
Proof.
  intros m x y f g init He Hx Hy. unfold typed_dot.
  apply wp_fold_range with (I := fun k a m' => a = sums init k (fun k => cbin L Times (f k) (g k)) /\ m' = m); auto; try lia.
  intros i a m' Hi [-> ->]. apply wp_bind. eapply (@wp_vget O); eauto; try lia.
  apply wp_bind. eapply (@wp_vget O); eauto; try lia. apply wp_ret. rewrite typed_sums_S; auto.
Qed.

Lemma wp_typed_vacc : forall (m0 m : mem O) (y : vec O) g i e (Q : unit -> mem O -> Prop),
  vwritable y -> vst m0 m y g -> i < vext y ->
  (forall m', vst m0 m' y (fset g i (cast L tY (cbin L Plus (g i) e))) -> Q tt m') -> succeeds (typed_vacc L z o tY y i e) m Q.
Proof.
  intros m0 m y g i e Q Hw Hst Hi HQ. unfold typed_vacc. apply wp_bind.
  eapply (@wp_vget O); [apply Hst | auto |]. eapply (@wp_vset O); eauto.
Qed.
Lemma wp_typed_macc : forall (m0 m : mem O) (A : mat O) (P : nat -> nat -> Prop) g i j e (Q : unit -> mem O -> Prop),
  mwritable_on A P -> mst m0 m A P g -> i < ext0 A -> j < ext1 A -> P i j ->
  (forall m', mst m0 m' A P (fset2 g i j (cast L tY (cbin L Plus (g i j) e))) -> Q tt m') -> succeeds (typed_macc L z o tY A i j e) m Q.
Proof.
  intros m0 m A P g i j e Q Hw Hst Hi Hj HP HQ. unfold typed_macc. apply wp_bind.
  eapply (@wp_mget O); [apply Hst | auto | auto | auto |]. eapply (@wp_mset O); eauto.
Qed.
Lemma wp_typed_row : forall (m0 m : mem O) (y : vec O) g i s n (e : nat -> cval L) body,
  vst m0 m y (fset g i s) -> i < vext y ->
  (forall j m' g' (Q : unit -> mem O -> Prop), j < n -> vst m0 m' y g' ->
     (forall m'', vst m0 m'' y (fset g' i (cast L tY (cbin L Plus (g' i) (e j)))) -> Q tt m'') -> succeeds (body j) m' Q) ->
  succeeds (for_range 0 n body) m (fun _ m' => vst m0 m' y (fset g i (sums s n e))).
Proof.
  intros m0 m y g i s n e body Hst Hi Hb.
  apply wp_for_range with (I := fun k m' => vst m0 m' y (fset g i (sums s k e))); auto; try lia.
  intros j m' Hj HI. eapply Hb; eauto; try lia. intros m'' H. eapply vst_ext; [|exact H].
  intros k Hk. rewrite typed_sums_S. unfold fset. rewrite Nat.eqb_refl. bcase.
Qed.
Lemma wp_typed_cell : forall (m0 m : mem O) (C : mat O) (P : nat -> nat -> Prop) g i j s n (e : nat -> cval L) body,
  mst m0 m C P (fset2 g i j s) ->
  (forall k m' g' (Q : unit -> mem O -> Prop), k < n -> mst m0 m' C P g' ->
     (forall m'', mst m0 m'' C P (fset2 g' i j (cast L tY (cbin L Plus (g' i j) (e k)))) -> Q tt m'') -> succeeds (body k) m' Q) ->
  succeeds (for_range 0 n body) m (fun _ m' => mst m0 m' C P (fset2 g i j (sums s n e))).
Proof.
  intros m0 m C P g i j s n e body Hst Hb.
  apply wp_for_range with (I := fun k m' => mst m0 m' C P (fset2 g i j (sums s k e))); auto; try lia.
  intros k m' Hk HI. eapply Hb; eauto; try lia. intros m'' H. eapply mst_ext; [|exact H].
  intros k' l' Hk' Hl' _. rewrite typed_sums_S. unfold fset2. rewrite !Nat.eqb_refl. bcase.
Qed.

Lemma typed_gemv_ok : forall (m : mem O) A x y a f,
  vext x = ext1 A -> vext y = ext0 A ->
  mat_holds m A a -> vec_holds m x f -> vwritable y -> allocated m (vcells y) ->
  disjoint (mcells A) (vcells y) -> disjoint (vcells x) (vcells y) ->
  succeeds (typed_gemv L z o tY A x y) m (fun _ m' =>
    vec_holds m' y (fun i => sums (cast L tY z) (ext1 A) (fun j => cbin L Times (a i j) (f j))) /\ changes_only m m' (vcells y)).
Proof.
  intros m A x y a f Hx Hy HA Hf Hw Hal HdA Hdx. pose proof (alloc_vec_holds Hal) as H0. eapply wp_conseq.
  { unfold typed_gemv.
    apply (@wp_elems O) with (m0 := m) (x := y) (x0 := contents_v m y)
       (f := fun i => sums (cast L tY z) (ext1 A) (fun j => cbin L Times (a i j) (f j))); auto using vst_init; try lia.
    intros i m' g Hi Hst Hg. apply wp_bind. eapply (@wp_vset O); eauto; try lia. intros m1 H1.
    eapply wp_typed_row; eauto; try lia.
    intros j m2 g' Q Hj Hst2 HQ.
    apply wp_bind. eapply (@wp_mget O) with (P := all2); [eapply mat_holds_frame; [exact HA|apply Hst2|exact HdA] | lia | lia | exact I|].
    apply wp_bind. eapply (@wp_vget O); [eapply vec_holds_frame; [exact Hf|apply Hst2|exact Hdx] | lia |].
    eapply wp_typed_vacc; eauto; lia. }
  intros [] m' H. eapply vst_done; [exact H|]. intros; bcase.
Qed.
Lemma typed_gemv_upd_ok : forall (m : mem O) A x y v a f g,
  vext x = ext1 A -> vext y = ext0 A -> vext v = ext0 A ->
  mat_holds m A a -> vec_holds m x f -> vec_holds m y g -> vwritable v -> allocated m (vcells v) ->
  disjoint (mcells A) (vcells v) -> disjoint (vcells x) (vcells v) -> disjoint_or_aligned_v y v ->
  succeeds (typed_gemv_upd L z o tY A x y v) m (fun _ m' =>
    vec_holds m' v (fun i => sums (cast L tY (g i)) (ext1 A) (fun j => cbin L Times (a i j) (f j))) /\ changes_only m m' (vcells v)).
Proof.
  intros m A x y v a f h Hx Hy Hv HA Hf Hh Hw Hal HdA Hdx Hdy. pose proof (alloc_vec_holds Hal) as H0. eapply wp_conseq.
  { unfold typed_gemv_upd.
    apply (@wp_elems O) with (m0 := m) (x := v) (x0 := contents_v m v)
       (f := fun i => sums (cast L tY (h i)) (ext1 A) (fun j => cbin L Times (a i j) (f j))); auto using vst_init; try lia.
    intros i m' g Hi Hst Hg. apply wp_bind. apply wp_bind.
    eapply (@wp_vget_alias O) with (x := y); eauto; try lia.
    eapply (@wp_vset O); eauto; try lia. intros m1 H1.
    eapply wp_typed_row; eauto; try lia.
    intros j m2 g' Q Hj Hst2 HQ.
    apply wp_bind. eapply (@wp_mget O) with (P := all2); [eapply mat_holds_frame; [exact HA|apply Hst2|exact HdA] | lia | lia | exact I|].
    apply wp_bind. eapply (@wp_vget O); [eapply vec_holds_frame; [exact Hf|apply Hst2|exact Hdx] | lia |].
    eapply wp_typed_vacc; eauto; lia. }
  intros [] m' H. eapply vst_done; [exact H|]. intros; bcase.
Qed.
Lemma typed_ger_ok : forall (m : mem O) x y A a f g,
  vext x = ext0 A -> vext y = ext1 A ->
  mat_holds m A a -> vec_holds m x f -> vec_holds m y g -> mwritable A ->
  disjoint (vcells x) (mcells A) -> disjoint (vcells y) (mcells A) ->
  succeeds (typed_ger L z o tY x y A) m (fun _ m' =>
    mat_holds m' A (fun i j => cast L tY (cbin L Plus (a i j) (cbin L Times (f i) (g j)))) /\ changes_only m m' (mcells A)).
Proof.
  intros m x y A a f g Hx Hy HA Hf Hg Hw Hdx Hdy. eapply wp_conseq.
  { unfold typed_ger. apply (@wp_rows O) with (m0 := m) (C := A) (P := all2) (c0 := a)
      (f := fun i j => cast L tY (cbin L Plus (a i j) (cbin L Times (f i) (g j)))) (lo := fun _ => 0) (hi := fun _ => ext1 A); auto using mst_init; try lia.
    intros i j m' h Hi Hj Hst Hh.
    apply wp_bind. eapply (@wp_vget_mst O) with (x := x); eauto; try lia.
    apply wp_bind. eapply (@wp_vget_mst O) with (x := y); eauto; try lia.
    eapply wp_typed_macc; eauto; try lia. exact I. rewrite Hh. auto. }
  intros [] m' H. eapply mst_done; [exact H|]. intros; bcase.
Qed.
Lemma typed_gemm_ok : forall (m : mem O) A B C a b,
  ext0 C = ext0 A -> ext1 A = ext0 B -> ext1 C = ext1 B ->
  mat_holds m A a -> mat_holds m B b -> mwritable C -> allocated m (mcells C) ->
  disjoint (mcells A) (mcells C) -> disjoint (mcells B) (mcells C) ->
  succeeds (typed_gemm L z o tY A B C) m (fun _ m' =>
    mat_holds m' C (fun i j => sums (cast L tY z) (ext1 A) (fun k => cbin L Times (a i k) (b k j))) /\ changes_only m m' (mcells C)).
Proof.
  intros m A B C a b H1 H2 H3 HA HB Hw Hal HdA HdB.
  pose proof (alloc_mat_holds Hal) as H0. eapply wp_conseq.
  { unfold typed_gemm. apply (@wp_rows O) with (m0 := m) (C := C) (P := all2) (c0 := contents_m m C)
      (f := fun i j => sums (cast L tY z) (ext1 A) (fun k => cbin L Times (a i k) (b k j)))
      (lo := fun _ => 0) (hi := fun _ => ext1 C); auto using mst_init; try lia.
    intros i j m' g Hi Hj Hst Hg. apply wp_bind.
    eapply (@wp_mset O); [exact Hw|exact Hst|lia|lia|exact I|]. intros m1 Hst1.
    eapply wp_typed_cell; [exact Hst1|].
    intros k m2 g' Q Hk Hst2 HQ.
    apply wp_bind. eapply (@wp_mget_in O) with (A := A); eauto; try lia; try exact I.
    apply wp_bind. eapply (@wp_mget_in O) with (A := B); eauto; try lia; try exact I.
    eapply wp_typed_macc; eauto; try lia; exact I. }
  intros [] m' H. eapply mst_done; [exact H|]. intros; bcase.
Qed.
Lemma typed_gemm_upd_ok : forall (m : mem O) A B E C a b e,
  ext0 C = ext0 A -> ext1 A = ext0 B -> ext1 C = ext1 B -> ext0 E = ext0 C -> ext1 E = ext1 C ->
  mat_holds m A a -> mat_holds m B b -> mat_holds m E e -> mwritable C -> allocated m (mcells C) ->
  disjoint (mcells A) (mcells C) -> disjoint (mcells B) (mcells C) -> disjoint_or_aligned_m E C ->
  succeeds (typed_gemm_upd L z o tY A B E C) m (fun _ m' =>
    mat_holds m' C (fun i j => sums (cast L tY (e i j)) (ext1 A) (fun k => cbin L Times (a i k) (b k j))) /\ changes_only m m' (mcells C)).
Proof.
  intros m A B E C a b e H1 H2 H3 H4 H5 HA HB HE Hw Hal HdA HdB HdE.
  pose proof (alloc_mat_holds Hal) as H0. eapply wp_conseq.
  { unfold typed_gemm_upd. apply (@wp_rows O) with (m0 := m) (C := C) (P := all2) (c0 := contents_m m C)
      (f := fun i j => sums (cast L tY (e i j)) (ext1 A) (fun k => cbin L Times (a i k) (b k j)))
      (lo := fun _ => 0) (hi := fun _ => ext1 C); auto using mst_init; try lia.
    intros i j m' g Hi Hj Hst Hg. apply wp_bind. apply wp_bind.
    eapply (@wp_mget_alias O) with (A := E) (C := C); eauto; try lia.
    eapply (@wp_mset O); [exact Hw|exact Hst|lia|lia|exact I|]. intros m1 Hst1.
    eapply wp_typed_cell; [exact Hst1|].
    intros k m2 g' Q Hk Hst2 HQ.
    apply wp_bind. eapply (@wp_mget_in O) with (A := A); eauto; try lia; try exact I.
    apply wp_bind. eapply (@wp_mget_in O) with (A := B); eauto; try lia; try exact I.
    eapply wp_typed_macc; eauto; try lia; exact I. }
  intros [] m' H. eapply mst_done; [exact H|]. intros; bcase.
Qed.

(** An accumulator at least as wide as the terms: no conversion changes anything. *)
Lemma typed_sums_wide : type_laws L -> forall init n f,
  type_of L init = tY -> (forall k, k < n -> mul_type L tY (type_of L (f k)) = tY) ->
  sums init n f = plain_sum L init n f /\ type_of L (plain_sum L init n f) = tY.
Proof.
  intros [T1 T2 T3] init n f Hi. induction n as [|n IH]; intros Hf.
  - split; [reflexivity|exact Hi].
  - destruct IH as [I1 I2]; [intros; apply Hf; lia|].
    assert (plain_sum L init (S n) f = cbin L Plus (plain_sum L init n f) (f n)) as E
      by (unfold plain_sum; rewrite seq_S, fold_left_app; reflexivity).
    rewrite typed_sums_S, E, I1.
    assert (type_of L (cbin L Plus (plain_sum L init n f) (f n)) = tY) as Ht by (rewrite T3, I2; apply Hf; lia).
    split; [|exact Ht]. rewrite <- Ht at 1. apply T2.
Qed.
End Pf.

Section Pf2.
Variable L : cpp.
Variables z o : cval L.
Notation O := (typed_ops L z o).
Lemma typed_dot_noinit_ok : forall t1 t2 (m : mem O) x y f g, vext x = vext y -> vec_holds m x f -> vec_holds m y g ->
  succeeds (typed_dot_noinit L z o t1 t2 x y) m (fun r m' =>
    r = typed_sums L (mul_type L t1 t2) (cast L (mul_type L t1 t2) z) (vext x) (fun k => cbin L Times (f k) (g k)) /\ m' = m).
Proof. intros. apply typed_dot_ok; auto. Qed.
Lemma typed_dot_once : type_laws L -> forall tS t (m : mem O) x y f g init,
  vext x = vext y -> vec_holds m x f -> vec_holds m y g -> type_of L init = tS ->
  (forall i, i < vext x -> type_of L (cbin L Times (f i) (g i)) = t) -> mul_type L tS t = tS ->
  succeeds (typed_dot L z o tS x y init) m (fun r m' =>
    r = plain_sum L init (vext x) (fun k => cbin L Times (f k) (g k)) /\ m' = m).
Proof.
  intros TL tS t m x y f g init He Hx Hy Hi Ht Hw. eapply wp_conseq; [apply typed_dot_ok; eauto|].
  intros r m' [-> ->]. split; auto. apply typed_sums_wide; auto. intros k Hk. rewrite Ht; auto.
Qed.
Lemma typed_gemv_once : type_laws L -> forall tY t (m : mem O) A x y a f,
  vext x = ext1 A -> vext y = ext0 A ->
  mat_holds m A a -> vec_holds m x f -> vwritable y -> allocated m (vcells y) ->
  disjoint (mcells A) (vcells y) -> disjoint (vcells x) (vcells y) ->
  (forall i j, i < ext0 A -> j < ext1 A -> type_of L (cbin L Times (a i j) (f j)) = t) -> mul_type L tY t = tY ->
  succeeds (typed_gemv L z o tY A x y) m (fun _ m' =>
    vec_holds m' y (fun i => plain_sum L (cast L tY z) (ext1 A) (fun j => cbin L Times (a i j) (f j))) /\ changes_only m m' (vcells y)).
Proof.
  intros TL tY t m A x y a f Hx Hy HA Hf Hw Hal HdA Hdx Ht Hwd. eapply wp_conseq; [apply typed_gemv_ok; eauto|].
  intros [] m' [H1 H2]. split; auto. eapply vec_holds_ext; [|exact H1]. intros i Hi. simpl.
  apply typed_sums_wide; auto. apply (type_cast L TL). intros k Hk. rewrite Ht; auto; lia.
Qed.
Lemma typed_gemm_once : type_laws L -> forall tY t (m : mem O) A B C a b,
  ext0 C = ext0 A -> ext1 A = ext0 B -> ext1 C = ext1 B ->
  mat_holds m A a -> mat_holds m B b -> mwritable C -> allocated m (mcells C) ->
  disjoint (mcells A) (mcells C) -> disjoint (mcells B) (mcells C) ->
  (forall i k j, i < ext0 A -> k < ext1 A -> j < ext1 B -> type_of L (cbin L Times (a i k) (b k j)) = t) -> mul_type L tY t = tY ->
  succeeds (typed_gemm L z o tY A B C) m (fun _ m' =>
    mat_holds m' C (fun i j => plain_sum L (cast L tY z) (ext1 A) (fun k => cbin L Times (a i k) (b k j))) /\ changes_only m m' (mcells C)).
Proof.
  intros TL tY t m A B C a b H1 H2 H3 HA HB Hw Hal HdA HdB Ht Hwd. eapply wp_conseq; [apply typed_gemm_ok; eauto|].
  intros [] m' [K1 K2]. split; auto. eapply mat_holds_on_ext; [|exact K1]. intros i j Hi Hj _. simpl.
  apply typed_sums_wide; auto. apply (type_cast L TL). intros k Hk. rewrite Ht; auto; lia.
Qed.
End Pf2.

(** Proofs about Blas1.v. *)
From Coq Require Import List Arith NArith Lia Bool.
From Verif Require Import Mem Scalar View Spec Wp Loops Blas1.
Import ListNotations.
Set Implicit Arguments.
Local Open Scope sc_scope.

Section Pf.
Context {O : ops}.

Lemma vst_done : forall (m0 m : mem O) x f g,
  vst m0 m x f -> (forall i, i < vext x -> f i = g i) -> vec_holds m x g /\ changes_only m0 m (vcells x).
Proof. intros m0 m x f g [H1 H2] E; split; auto. eapply vec_holds_ext; eauto. Qed.
Lemma mst_done : forall (m0 m : mem O) A (P : nat -> nat -> Prop) f g,
  mst m0 m A P f -> (forall i j, i < ext0 A -> j < ext1 A -> P i j -> f i j = g i j) ->
  mat_holds_on m A P g /\ changes_only m0 m (mcells_on A P).
Proof. intros m0 m A P f g [H1 H2] E; split; auto. eapply mat_holds_on_ext; eauto. Qed.

Lemma copy_1_ok : forall (m : mem O) x y f,
  vext x = vext y -> vec_holds m x f -> vwritable y -> allocated m (vcells y) ->
  disjoint_or_aligned_v x y ->
  succeeds (copy_1 x y) m (fun _ m' => vec_holds m' y f /\ changes_only m m' (vcells y)).
Proof.
  intros m x y f He Hx Hw Ha Hal. pose proof (alloc_vec_holds Ha) as Hy.
  eapply wp_conseq.
  { unfold copy_1. apply wp_elems with (m0 := m) (x := y) (x0 := contents_v m y) (f := f); auto using vst_init.
    intros i m' g Hi Hst Hg. apply wp_bind.
    eapply wp_vget_alias; eauto; try lia.
    eapply wp_vset; eauto. }
  intros [] m' H. eapply vst_done; [exact H|]. intros; bcase.
Qed.

Lemma copy_2_ok : forall (m : mem O) x y f,
  ext0 x = ext0 y -> ext1 x = ext1 y -> mat_holds m x f -> mwritable y -> allocated m (mcells y) ->
  disjoint_or_aligned_m x y ->
  succeeds (copy_2 x y) m (fun _ m' => mat_holds m' y f /\ changes_only m m' (mcells y)).
Proof.
  intros m x y f He0 He1 Hx Hw Ha Hal. pose proof (alloc_mat_holds Ha) as Hy.
  eapply wp_conseq.
  { unfold copy_2. apply wp_cols with (m0 := m) (C := y) (P := all2) (c0 := contents_m m y) (f := f)
      (lo := fun _ => 0) (hi := fun _ => ext0 y); auto using mst_init; try lia.
    intros i j m' g Hi Hj Hst Hg. apply wp_bind.
    eapply wp_mget_alias; eauto; try lia.
    eapply wp_mset; eauto; try lia. exact I. }
  intros [] m' H. eapply mst_done; [exact H|]. intros; bcase.
Qed.

Lemma scale_1_ok : forall (m : mem O) alpha x f,
  vec_holds m x f -> vwritable x ->
  succeeds (scale_1 alpha x) m (fun _ m' => vec_holds m' x (fun i => f i * alpha) /\ changes_only m m' (vcells x)).
Proof.
  intros m alpha x f Hx Hw.
  eapply wp_conseq.
  { unfold scale_1. apply wp_elems with (m0 := m) (x := x) (x0 := f) (f := fun i => f i * alpha); auto using vst_init.
    intros i m' g Hi Hst Hg. apply wp_bind.
    eapply wp_vget; [apply Hst| auto |]. rewrite Hg.
    eapply wp_vset; eauto. }
  intros [] m' H. eapply vst_done; [exact H|]. intros; bcase.
Qed.

Lemma scale_2_ok : forall (m : mem O) alpha x f,
  mat_holds m x f -> mwritable x ->
  succeeds (scale_2 alpha x) m (fun _ m' => mat_holds m' x (fun i j => f i j * alpha) /\ changes_only m m' (mcells x)).
Proof.
  intros m alpha x f Hx Hw.
  eapply wp_conseq.
  { unfold scale_2. apply wp_cols with (m0 := m) (C := x) (P := all2) (c0 := f) (f := fun i j => f i j * alpha)
      (lo := fun _ => 0) (hi := fun _ => ext0 x); auto using mst_init; try lia.
    intros i j m' g Hj Hi Hst Hg. apply wp_bind.
    eapply wp_mget; [apply Hst| lia | lia | exact I |]. rewrite Hg.
    eapply wp_mset; eauto; try lia. exact I. }
  intros [] m' H. eapply mst_done; [exact H|]. intros; bcase.
Qed.

Lemma add_1_ok : forall (m : mem O) x y z f g,
  vext x = vext z -> vext y = vext z -> vec_holds m x f -> vec_holds m y g ->
  vwritable z -> allocated m (vcells z) -> disjoint_or_aligned_v x z -> disjoint_or_aligned_v y z ->
  succeeds (add_1 x y z) m (fun _ m' => vec_holds m' z (fun i => f i + g i) /\ changes_only m m' (vcells z)).
Proof.
  intros m x y z f g Hex Hey Hx Hy Hw Ha Hal1 Hal2. pose proof (alloc_vec_holds Ha) as Hz.
  eapply wp_conseq.
  { unfold add_1. apply wp_elems with (m0 := m) (x := z) (x0 := contents_v m z) (f := fun i => f i + g i); auto using vst_init.
    intros i m' h Hi Hst Hg. apply wp_bind.
    eapply wp_vget_alias with (x := x); eauto; try lia. apply wp_bind.
    eapply wp_vget_alias with (x := y); eauto; try lia.
    eapply wp_vset; eauto. }
  intros [] m' H. eapply vst_done; [exact H|]. intros; bcase.
Qed.

Lemma add_2_ok : forall (m : mem O) x y z f g,
  ext0 x = ext0 z -> ext1 x = ext1 z -> ext0 y = ext0 z -> ext1 y = ext1 z ->
  mat_holds m x f -> mat_holds m y g ->
  mwritable z -> allocated m (mcells z) -> disjoint_or_aligned_m x z -> disjoint_or_aligned_m y z ->
  succeeds (add_2 x y z) m (fun _ m' => mat_holds m' z (fun i j => f i j + g i j) /\ changes_only m m' (mcells z)).
Proof.
  intros m x y z f g Hx0 Hx1 Hy0 Hy1 Hx Hy Hw Ha Hal1 Hal2. pose proof (alloc_mat_holds Ha) as Hz.
  eapply wp_conseq.
  { unfold add_2. apply wp_cols with (m0 := m) (C := z) (P := all2) (c0 := contents_m m z)
      (f := fun i j => f i j + g i j) (lo := fun _ => 0) (hi := fun _ => ext0 x); auto using mst_init; try lia.
    intros i j m' h Hj Hi Hst Hg. apply wp_bind.
    eapply wp_mget_alias with (A := x); eauto; try lia. apply wp_bind.
    eapply wp_mget_alias with (A := y); eauto; try lia.
    eapply wp_mset; eauto; try lia. exact I. }
  intros [] m' H. eapply mst_done; [exact H|]. intros; bcase.
Qed.

Lemma dot_ok : forall (m : mem O) x y f g init,
  vext x = vext y -> vec_holds m x f -> vec_holds m y g ->
  succeeds (dot x y init) m (fun r m' => r = sum_from init 0 (vext x) (fun k => f k * g k) /\ m' = m).
Proof.
  intros m x y f g init He Hx Hy. unfold dot.
  apply wp_fold_range with (I := fun k a m' => a = sum_from init 0 k (fun k => f k * g k) /\ m' = m); auto; try lia.
  intros i a m' Hi [-> ->]. apply wp_bind. eapply wp_vget; eauto; try lia.
  apply wp_bind. eapply wp_vget; eauto; try lia. apply wp_ret. rewrite sum_from_S; auto.
Qed.

(** What a conjugated view reads, for types where [conj] is the identity when not complex. *)
Lemma conjugated_v_holds : forall (m : mem O) fix_nc nc x f,
  (forall v : O, conj (conj v) = v) -> (nc = true -> forall v : O, conj v = v) ->
  vec_holds m x f -> vec_holds m (conjugated_v fix_nc nc x) (fun i => conj (f i)).
Proof.
  intros m fix_nc nc x f Hcc Hnc H i Hi. destruct (H i Hi) as (v & Hv & Hf).
  exists v; split; auto. simpl. unfold conj_acc. rewrite <- Hf.
  destruct (vacc x) as [|al c|c]; simpl; auto;
  destruct fix_nc; destruct nc; simpl; auto; rewrite Hnc; auto.
Qed.

Lemma dotc_ok : forall (m : mem O) fix_nc nc x y f g init,
  (forall v : O, conj (conj v) = v) -> (nc = true -> forall v : O, conj v = v) ->
  vext x = vext y -> vec_holds m x f -> vec_holds m y g ->
  succeeds (dotc fix_nc nc x y init) m
    (fun r m' => r = sum_from init 0 (vext x) (fun k => conj (f k) * g k) /\ m' = m).
Proof.
  intros m fix_nc nc x y f g init Hcc Hnc He Hx Hy. unfold dotc.
  pose proof (@dot_ok m (conjugated_v fix_nc nc x) y (fun i => conj (f i)) g init) as H. simpl in H.
  apply H; auto. apply conjugated_v_holds; auto.
Qed.

(** Two outputs at once. *)
Definition vst2 (m0 m : mem O) (x y : vec O) f g : Prop :=
  vec_holds m x f /\ vec_holds m y g /\ changes_only m0 m (fun a => vcells x a \/ vcells y a).

Lemma wp_vset2_l : forall (m0 m : mem O) x y f g i v (Q : unit -> mem O -> Prop),
  vwritable x -> disjoint (vcells x) (vcells y) -> vst2 m0 m x y f g -> i < vext x ->
  (forall m', vst2 m0 m' x y (fset f i v) g -> Q tt m') -> succeeds (vset x i v) m Q.
Proof.
  intros m0 m x y f g i v Q Hw Hd (Hx & Hy & Hc) Hi HQ.
  eapply wp_vset with (m0 := m); eauto using vst_init.
  intros m' [H1 H2]. apply HQ. split; [|split]; auto.
  - eapply vec_holds_frame; eauto. intros a ? ?; eapply Hd; eauto.
  - eapply changes_only_trans; eauto. eapply changes_only_mono; [|exact H2]. auto.
Qed.
Lemma wp_vset2_r : forall (m0 m : mem O) x y f g i v (Q : unit -> mem O -> Prop),
  vwritable y -> disjoint (vcells x) (vcells y) -> vst2 m0 m x y f g -> i < vext y ->
  (forall m', vst2 m0 m' x y f (fset g i v) -> Q tt m') -> succeeds (vset y i v) m Q.
Proof.
  intros m0 m x y f g i v Q Hw Hd (Hx & Hy & Hc) Hi HQ.
  eapply wp_vset with (m0 := m); eauto using vst_init.
  intros m' [H1 H2]. apply HQ. split; [|split]; auto.
  - eapply vec_holds_frame; eauto.
  - eapply changes_only_trans; eauto. eapply changes_only_mono; [|exact H2]. auto.
Qed.
Lemma vst2_ext : forall (m0 m : mem O) x y f g f' g',
  (forall i, i < vext x -> f i = f' i) -> (forall i, i < vext y -> g i = g' i) ->
  vst2 m0 m x y f g -> vst2 m0 m x y f' g'.
Proof. intros m0 m x y f g f' g' E1 E2 (H1 & H2 & H3); split; [|split]; auto; eapply vec_holds_ext; eauto. Qed.

Lemma swap_1_ok : forall (m : mem O) x y f g,
  vext x = vext y -> vec_holds m x f -> vec_holds m y g -> vwritable x -> vwritable y ->
  disjoint (vcells x) (vcells y) ->
  succeeds (swap_1 x y) m (fun _ m' => vec_holds m' x g /\ vec_holds m' y f /\
    changes_only m m' (fun a => vcells x a \/ vcells y a)).
Proof.
  intros m x y f g He Hx Hy Hwx Hwy Hd. unfold swap_1.
  apply wp_for_range with (I := fun k m' => vst2 m m' x y (fun i => if i <? k then g i else f i)
                                                    (fun i => if i <? k then f i else g i)); try lia.
  - split; [|split]; auto using changes_only_refl.
  - intros i m' Hi HI. pose proof HI as (HIx & HIy & HIc).
    apply wp_bind. eapply wp_vget; [exact HIx | lia |]. cbv beta.
    apply wp_bind. eapply wp_vget; [exact HIy | lia |]. cbv beta.
    apply wp_bind. eapply wp_vset2_l; eauto; try lia. intros m1 H1.
    eapply wp_vset2_r; eauto; try lia. intros m2 H2.
    eapply vst2_ext; [| | exact H2]; intros k Hk; unfold fset; bcase.
  - intros m' H. apply vst2_ext with (f' := g) (g' := f) in H; auto; intros; bcase.
Qed.

Lemma apply_givens_ok : forall (m : mem O) x y f g c s,
  vext x = vext y -> vec_holds m x f -> vec_holds m y g -> vwritable x -> vwritable y ->
  disjoint (vcells x) (vcells y) ->
  succeeds (apply_givens_rotation x y c s) m (fun _ m' =>
    vec_holds m' x (fun i => c * f i + s * g i) /\
    vec_holds m' y (fun i => c * g i - s * f i) /\
    changes_only m m' (fun a => vcells x a \/ vcells y a)).
Proof.
  intros m x y f g c s He Hx Hy Hwx Hwy Hd. unfold apply_givens_rotation.
  apply wp_for_range with (I := fun k m' => vst2 m m' x y
     (fun i => if i <? k then c * f i + s * g i else f i)
     (fun i => if i <? k then c * g i - s * f i else g i)); try lia.
  - split; [|split]; auto using changes_only_refl.
  - intros i m' Hi HI. pose proof HI as (HIx & HIy & HIc).
    apply wp_bind. eapply wp_vget; [exact HIx | lia |]. cbv beta.
    apply wp_bind. eapply wp_vget; [exact HIy | lia |]. cbv beta zeta.
    apply wp_bind. eapply wp_vget; [exact HIy | lia |]. cbv beta.
    apply wp_bind. eapply wp_vget; [exact HIx | lia |]. cbv beta.
    apply wp_bind. eapply wp_vset2_r; eauto; try lia. intros m1 H1.
    eapply wp_vset2_l; eauto; try lia. intros m2 H2.
    eapply vst2_ext; [| | exact H2]; intros k Hk; unfold fset; bcase.
  - intros m' H. eapply vst2_ext in H; [exact H | |]; intros; bcase.
Qed.

Lemma apply_givens_c_ok : forall (m : mem O) x y f g c s,
  vext x = vext y -> vec_holds m x f -> vec_holds m y g -> vwritable x -> vwritable y ->
  disjoint (vcells x) (vcells y) ->
  succeeds (apply_givens_rotation_c x y c s) m (fun _ m' =>
    vec_holds m' x (fun i => c * f i + s * g i) /\
    vec_holds m' y (fun i => c * g i - conj s * f i) /\
    changes_only m m' (fun a => vcells x a \/ vcells y a)).
Proof.
  intros m x y f g c s He Hx Hy Hwx Hwy Hd. unfold apply_givens_rotation_c.
  apply wp_for_range with (I := fun k m' => vst2 m m' x y
     (fun i => if i <? k then c * f i + s * g i else f i)
     (fun i => if i <? k then c * g i - conj s * f i else g i)); try lia.
  - split; [|split]; auto using changes_only_refl.
  - intros i m' Hi HI. pose proof HI as (HIx & HIy & HIc).
    apply wp_bind. eapply wp_vget; [exact HIx | lia |]. cbv beta.
    apply wp_bind. eapply wp_vget; [exact HIy | lia |]. cbv beta zeta.
    apply wp_bind. eapply wp_vget; [exact HIy | lia |]. cbv beta.
    apply wp_bind. eapply wp_vget; [exact HIx | lia |]. cbv beta.
    apply wp_bind. eapply wp_vset2_r; eauto; try lia. intros m1 H1.
    eapply wp_vset2_l; eauto; try lia. intros m2 H2.
    eapply vst2_ext; [| | exact H2]; intros k Hk; unfold fset; bcase.
  - intros m' H. eapply vst2_ext in H; [exact H | |]; intros; bcase.
Qed.

(** Two matrix outputs at once. *)
Definition mst2 (m0 m : mem O) (x y : mat O) f g : Prop :=
  mat_holds m x f /\ mat_holds m y g /\ changes_only m0 m (fun a => mcells x a \/ mcells y a).
Lemma wp_mset2_l : forall (m0 m : mem O) x y f g i j v (Q : unit -> mem O -> Prop),
  mwritable x -> disjoint (mcells x) (mcells y) -> mst2 m0 m x y f g -> i < ext0 x -> j < ext1 x ->
  (forall m', mst2 m0 m' x y (fset2 f i j v) g -> Q tt m') -> succeeds (mset x i j v) m Q.
Proof.
  intros m0 m x y f g i j v Q Hw Hd (Hx & Hy & Hc) Hi Hj HQ.
  eapply wp_mset with (m0 := m) (P := all2); eauto using mst_init. exact I.
  intros m' [H1 H2]. apply HQ. split; [|split]; auto.
  - eapply mat_holds_frame; eauto. intros a ? ?; eapply Hd; eauto.
  - eapply changes_only_trans; eauto. eapply changes_only_mono; [|exact H2]. unfold mcells; auto.
Qed.
Lemma wp_mset2_r : forall (m0 m : mem O) x y f g i j v (Q : unit -> mem O -> Prop),
  mwritable y -> disjoint (mcells x) (mcells y) -> mst2 m0 m x y f g -> i < ext0 y -> j < ext1 y ->
  (forall m', mst2 m0 m' x y f (fset2 g i j v) -> Q tt m') -> succeeds (mset y i j v) m Q.
Proof.
  intros m0 m x y f g i j v Q Hw Hd (Hx & Hy & Hc) Hi Hj HQ.
  eapply wp_mset with (m0 := m) (P := all2); eauto using mst_init. exact I.
  intros m' [H1 H2]. apply HQ. split; [|split]; auto.
  - eapply mat_holds_frame; eauto.
  - eapply changes_only_trans; eauto. eapply changes_only_mono; [|exact H2]. unfold mcells; auto.
Qed.
Lemma mst2_ext : forall (m0 m : mem O) x y f g f' g',
  (forall i j, i < ext0 x -> j < ext1 x -> f i j = f' i j) ->
  (forall i j, i < ext0 y -> j < ext1 y -> g i j = g' i j) ->
  mst2 m0 m x y f g -> mst2 m0 m x y f' g'.
Proof. intros m0 m x y f g f' g' E1 E2 (H1 & H2 & H3); split; [|split]; auto; (eapply mat_holds_on_ext; [|eassumption]); auto. Qed.

Lemma swap_2_ok : forall (m : mem O) x y f g,
  ext0 x = ext0 y -> ext1 x = ext1 y -> mat_holds m x f -> mat_holds m y g -> mwritable x -> mwritable y ->
  disjoint (mcells x) (mcells y) ->
  succeeds (swap_2 x y) m (fun _ m' => mat_holds m' x g /\ mat_holds m' y f /\
    changes_only m m' (fun a => mcells x a \/ mcells y a)).
Proof.
  intros m x y f g He0 He1 Hx Hy Hwx Hwy Hd. unfold swap_2.
  apply wp_for_range with (I := fun k m' => mst2 m m' x y (fun i j => if j <? k then g i j else f i j)
                                                    (fun i j => if j <? k then f i j else g i j)); try lia.
  - split; [|split]; auto using changes_only_refl.
  - intros j m' Hj HI.
    apply wp_for_range with (I := fun k m' => mst2 m m' x y
         (fun i j' => if (j' <? j) || ((j' =? j) && (i <? k)) then g i j' else f i j')
         (fun i j' => if (j' <? j) || ((j' =? j) && (i <? k)) then f i j' else g i j')); try lia.
    + eapply mst2_ext; [| | exact HI]; intros; bcase.
    + intros i m1 Hi HI1. pose proof HI1 as (HIx & HIy & HIc).
      apply wp_bind. eapply wp_mget; [exact HIx | lia | lia | exact I |].
      apply wp_bind. eapply wp_mget; [exact HIy | lia | lia | exact I |].
      apply wp_bind. eapply wp_mset2_l; eauto; try lia. intros m2 H2.
      eapply wp_mset2_r; eauto; try lia. intros m3 H3.
      eapply mst2_ext; [| | exact H3]; intros k l Hk Hl; unfold fset2; bcase.
    + intros m1 H1. eapply mst2_ext; [| | exact H1]; intros; bcase.
  - intros m' H. apply mst2_ext with (f' := g) (g' := f) in H; auto; intros; bcase.
Qed.

(** Swapping twice restores every cell. *)
Lemma swap_1_twice : forall (m : mem O) x y f g,
  vext x = vext y -> vec_holds m x f -> vec_holds m y g -> vwritable x -> vwritable y ->
  disjoint (vcells x) (vcells y) ->
  succeeds (bind (swap_1 x y) (fun _ => swap_1 x y)) m (fun _ m' => same_memory m m').
Proof.
  intros m x y f g He Hx Hy Hwx Hwy Hd.
  apply wp_bind. eapply wp_conseq; [eapply swap_1_ok; eauto|]. intros [] m1 (H1 & H2 & H3).
  eapply wp_conseq; [eapply swap_1_ok; eauto|]. intros [] m2 (H4 & H5 & H6).
  intros a. destruct Hwx as [Hdx _], Hwy as [Hdy _].
  assert (forall z h, vacc z = ADefault -> vec_holds m z h -> vec_holds m2 z h -> vcells z a -> m2 a = m a) as K.
  { intros z h Hz E1 E2 (i & Hi & ->). destruct (E1 i Hi) as (v & Hv & Hv').
    destruct (E2 i Hi) as (w & Hw & Hw'). rewrite Hz in *; simpl in *. congruence. }
  destruct (in_dec Nat.eq_dec a (map (vaddr x) (seq 0 (vext x)))) as [Hin|Hnx].
  { eapply K with (z := x); eauto. apply in_map_iff in Hin. destruct Hin as (i & <- & Hi).
    apply in_seq in Hi. exists i; split; auto; lia. }
  destruct (in_dec Nat.eq_dec a (map (vaddr y) (seq 0 (vext y)))) as [Hin|Hny].
  { eapply K with (z := y); eauto. apply in_map_iff in Hin. destruct Hin as (i & <- & Hi).
    apply in_seq in Hi. exists i; split; auto; lia. }
  assert (~ (vcells x a \/ vcells y a)) as N.
  { intros [(i & Hi & ->)|(i & Hi & ->)]; [apply Hnx | apply Hny]; apply in_map, in_seq; lia. }
  rewrite H6, H3; auto.
Qed.

(** Strict weak order on magnitudes (the < of the reals, of the integers, ...). *)
Lemma idx_abs_max_ok : forall (M : Type) (mag : O -> M) (ltb : M -> M -> bool) size_max (m : mem O) v f,
  (forall i, i < vext v -> ltb (mag (f i)) (mag (f i)) = false) ->
  (forall i j k, i < vext v -> j < vext v -> k < vext v ->
     ltb (mag (f i)) (mag (f j)) = true -> ltb (mag (f j)) (mag (f k)) = true -> ltb (mag (f i)) (mag (f k)) = true) ->
  (forall i j k, i < vext v -> j < vext v -> k < vext v ->
     ltb (mag (f i)) (mag (f k)) = true -> ltb (mag (f i)) (mag (f j)) = true \/ ltb (mag (f j)) (mag (f k)) = true) ->
  vec_holds m v f ->
  succeeds (vector_idx_abs_max mag ltb size_max v) m (fun r m' => m' = m /\
    ((vext v = 0 /\ r = size_max) \/
     exists k, r = N.of_nat k /\ k < vext v /\
       (forall i, i < vext v -> ltb (mag (f k)) (mag (f i)) = false) /\
       (forall i, i < k -> ltb (mag (f i)) (mag (f k)) = true))).
Proof.
  intros M mag ltb size_max m v f Hirr Htr Hco Hv. unfold vector_idx_abs_max.
  destruct (Nat.eqb_spec (vext v) 0) as [E|E].
  { apply wp_ret; auto. }
  apply wp_bind. eapply wp_vget; eauto; try lia.
  apply wp_bind.
  apply wp_fold_range with (I := fun i (r : nat * M) m' => m' = m /\ fst r < i /\ snd r = mag (f (fst r)) /\
     (forall j, j < i -> ltb (snd r) (mag (f j)) = false) /\
     (forall j, j < fst r -> ltb (mag (f j)) (snd r) = true)); try lia.
  - simpl. repeat split; auto; try lia. intros j Hj; replace j with 0 by lia; apply Hirr; lia.
  - intros i [k mv] m' Hi (-> & Hk & Hmv & H1 & H2). simpl in *. subst mv.
    apply wp_bind. eapply wp_vget; eauto; try lia. apply wp_ret.
    destruct (ltb (mag (f k)) (mag (f i))) eqn:El; simpl; repeat split; auto; try lia.
    + intros j Hj. destruct (Nat.eq_dec j i) as [->|]; [apply Hirr; lia|].
      destruct (ltb (mag (f i)) (mag (f j))) eqn:E2; auto.
      rewrite <- (H1 j) by lia. symmetry. apply (Htr k i j); auto; lia.
    + intros j Hj. destruct (Hco k j i ltac:(lia) ltac:(lia) ltac:(lia) El) as [E2|E2]; auto.
      rewrite H1 in E2; [discriminate|lia].
    + intros j Hj. destruct (Nat.eq_dec j i) as [->|]; auto. apply H1; lia.
  - intros [k mv] m' (-> & Hk & Hmv & H1 & H2). simpl in *. apply wp_ret. split; auto. right.
    exists k. subst mv. repeat split; auto.
Qed.
End Pf.

(** Generic elementwise loops and aliasing facts. *)
From Coq Require Import List Arith NArith Lia Bool.
From Verif Require Import Mem Scalar View Spec Wp.
Import ListNotations.
Set Implicit Arguments.
Local Open Scope sc_scope.

(** * Generic elementwise loops *)
Section Generic.
Context {O : ops}.

Lemma fset_same : forall T (f : nat -> T) i v, fset f i v i = v.
Proof. intros; unfold fset; rewrite Nat.eqb_refl; auto. Qed.
Lemma fset_other : forall T (f : nat -> T) i k v, k <> i -> fset f i v k = f k.
Proof. intros; unfold fset. apply Nat.eqb_neq in H; rewrite H; auto. Qed.
Lemma fset2_same : forall T (f : nat -> nat -> T) i j v, fset2 f i j v i j = v.
Proof. intros; unfold fset2; rewrite !Nat.eqb_refl; auto. Qed.
Lemma fset2_other : forall T (f : nat -> nat -> T) i j k l v, k <> i \/ l <> j -> fset2 f i j v k l = f k l.
Proof.
  intros; unfold fset2. destruct (Nat.eqb_spec k i); destruct (Nat.eqb_spec l j); simpl; auto; lia.
Qed.

(** A loop [for i: x(i) := f i] where the body may read the old x(i). *)
Lemma wp_elems : forall (m0 m : mem O) (x : vec O) (x0 f : nat -> O) n body,
  n <= vext x ->
  vst m0 m x x0 ->
  (forall i m' g, i < n -> vst m0 m' x g -> g i = x0 i ->
     succeeds (body i) m' (fun _ m'' => vst m0 m'' x (fset g i (f i)))) ->
  succeeds (for_range 0 n body) m (fun _ m' => vst m0 m' x (fun i => if i <? n then f i else x0 i)).
Proof.
  intros m0 m x x0 f n body Hn H0 Hb.
  apply wp_for_range with (I := fun k m' => vst m0 m' x (fun i => if i <? k then f i else x0 i)); auto; try lia.
  - intros i m' Hi HI. eapply wp_conseq; [eapply Hb; eauto; try lia|].
    + bcase.
    + intros [] m'' H. eapply vst_ext; [|exact H]. intros k Hk. unfold fset. bcase.
Qed.

(** Column-major nest [for j: for i in lo j..hi j: C(i,j) := f i j]. *)
Lemma wp_cols : forall (m0 m : mem O) (C : mat O) (P : nat -> nat -> Prop) (c0 f : nat -> nat -> O) nc lo hi body,
  (forall j, j < nc -> lo j <= hi j) ->
  mst m0 m C P c0 ->
  (forall i j m' g, j < nc -> lo j <= i < hi j -> mst m0 m' C P g -> g i j = c0 i j ->
     succeeds (body i j) m' (fun _ m'' => mst m0 m'' C P (fset2 g i j (f i j)))) ->
  succeeds (for_range 0 nc (fun j => for_range (lo j) (hi j) (fun i => body i j))) m
    (fun _ m' => mst m0 m' C P
       (fun i j => if (j <? nc) && ((lo j <=? i) && (i <? hi j)) then f i j else c0 i j)).
Proof.
  intros m0 m C P c0 f nc lo hi body Hlh H0 Hb.
  apply wp_for_range with (I := fun k m' => mst m0 m' C P
    (fun i j => if (j <? k) && ((lo j <=? i) && (i <? hi j)) then f i j else c0 i j)); auto; try lia.
  intros j m' Hj HI.
  apply wp_for_range with (I := fun k m' => mst m0 m' C P
      (fun i j' => if (j' <? j) && ((lo j' <=? i) && (i <? hi j')) then f i j'
                   else if (j' =? j) && ((lo j <=? i) && (i <? k)) then f i j' else c0 i j')).
  - apply Hlh; lia.
  - eapply mst_ext; [|exact HI]. intros i j' _ _ _. bcase.
  - intros i m'' Hi HI'. eapply wp_conseq; [eapply Hb; eauto; try lia|].
    + bcase.
    + intros [] m3 H. eapply mst_ext; [|exact H]. intros i' j' _ _ _. unfold fset2. bcase.
  - intros m'' H. eapply mst_ext; [|exact H]. intros i j' _ _ _. bcase.
Qed.

(** Row-major nest. *)
Lemma wp_rows : forall (m0 m : mem O) (C : mat O) (P : nat -> nat -> Prop) (c0 f : nat -> nat -> O) nr lo hi body,
  (forall i, i < nr -> lo i <= hi i) ->
  mst m0 m C P c0 ->
  (forall i j m' g, i < nr -> lo i <= j < hi i -> mst m0 m' C P g -> g i j = c0 i j ->
     succeeds (body i j) m' (fun _ m'' => mst m0 m'' C P (fset2 g i j (f i j)))) ->
  succeeds (for_range 0 nr (fun i => for_range (lo i) (hi i) (fun j => body i j))) m
    (fun _ m' => mst m0 m' C P
       (fun i j => if (i <? nr) && ((lo i <=? j) && (j <? hi i)) then f i j else c0 i j)).
Proof.
  intros m0 m C P c0 f nr lo hi body Hlh H0 Hb.
  apply wp_for_range with (I := fun k m' => mst m0 m' C P
    (fun i j => if (i <? k) && ((lo i <=? j) && (j <? hi i)) then f i j else c0 i j)); auto; try lia.
  intros i m' Hi HI.
  apply wp_for_range with (I := fun k m' => mst m0 m' C P
      (fun i' j => if (i' <? i) && ((lo i' <=? j) && (j <? hi i')) then f i' j
                   else if (i' =? i) && ((lo i <=? j) && (j <? k)) then f i' j else c0 i' j)).
  - apply Hlh; lia.
  - eapply mst_ext; [|exact HI]. intros i' j _ _ _. bcase.
  - intros j m'' Hj HI'. eapply wp_conseq; [eapply Hb; eauto; try lia|].
    + bcase.
    + intros [] m3 H. eapply mst_ext; [|exact H]. intros i' j' _ _ _. unfold fset2. bcase.
  - intros m'' H. eapply mst_ext; [|exact H]. intros i' j _ _ _. bcase.
Qed.
End Generic.

(** * Reading an input that may coincide with the output *)
Section Alias.
Context {O : ops}.

Lemma wp_vget_alias : forall (m0 m : mem O) (x z : vec O) fx z0 g i (Q : O -> mem O -> Prop),
  vwritable z -> vec_holds m0 z z0 -> vec_holds m0 x fx -> disjoint_or_aligned_v x z ->
  vst m0 m z g -> g i = z0 i -> i < vext x -> i < vext z -> Q (fx i) m ->
  succeeds (vget x i) m Q.
Proof.
  intros m0 m x z fx z0 g i Q [Hd Hu] Hz Hx [Hdis|Hal] [Hg Hc] Hgi Hi Hiz HQ.
  - eapply wp_vget; eauto. eapply vec_holds_frame; eauto.
  - destruct (Hx i Hi) as (v & Hv & Hf). destruct (Hz i Hiz) as (w & Hw & Hfw).
    destruct (Hg i Hiz) as (w' & Hw' & Hfw'). rewrite Hd in *; simpl in *.
    rewrite Hal in Hv by auto.
    exists (fx i), m; split; auto. unfold vget. apply Nat.ltb_lt in Hi; rewrite Hi; simpl.
    rewrite Hal by auto. rewrite Hw'. simpl. replace w' with v by congruence. rewrite Hf; auto.
Qed.

Lemma wp_mget_alias : forall (m0 m : mem O) (A C : mat O) fa c0 g i j (Q : O -> mem O -> Prop),
  mwritable C -> mat_holds m0 C c0 -> mat_holds m0 A fa -> disjoint_or_aligned_m A C ->
  mst m0 m C all2 g -> g i j = c0 i j -> i < ext0 A -> j < ext1 A -> i < ext0 C -> j < ext1 C -> Q (fa i j) m ->
  succeeds (mget A i j) m Q.
Proof.
  intros m0 m A C fa c0 g i j Q [Hd Hu] Hz Hx [Hdis|Hal] [Hg Hc] Hgi Hi Hj HiC HjC HQ.
  - eapply wp_mget; eauto. eapply mat_holds_frame; eauto. exact I.
  - assert (all2 i j) as T by exact I.
    destruct (Hx i j Hi Hj T) as (v & Hv & Hf). destruct (Hz i j HiC HjC T) as (w & Hw & Hfw).
    destruct (Hg i j HiC HjC T) as (w' & Hw' & Hfw'). rewrite Hd in *; simpl in *.
    rewrite Hal in Hv by auto.
    exists (fa i j), m; split; auto. unfold mget.
    apply Nat.ltb_lt in Hi; apply Nat.ltb_lt in Hj; rewrite Hi, Hj; simpl.
    rewrite Hal by auto. rewrite Hw'. simpl. replace w' with v by congruence. rewrite Hf; auto.
Qed.
End Alias.

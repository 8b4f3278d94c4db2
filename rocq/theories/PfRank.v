(** Proofs about Blas2.v: rank-1 and rank-2 updates; generic triangle update loops (also used for the
    rank-k updates of Blas3.v). *)
From Coq Require Import List Arith ZArith Lia Bool.
From Verif Require Import Mem Scalar View Spec Wp Loops Sums Idx PfBlas1 Blas2 PfBlas2.
Import ListNotations.
Set Implicit Arguments.
Local Open Scope sc_scope.

Section Pf.
Context {O : ops}.

Lemma in_tri_range : forall t n i j, j < n -> (tri_lo t j <= i < tri_hi t n j) <-> (in_tri t i j /\ i < n).
Proof. intros [] n i j Hj; simpl; lia. Qed.

(** Every element of the triangle goes from [a i j] to [u i j]; nothing else changes. *)
Lemma wp_tri_cols : forall (m : mem O) A t a u body,
  ext0 A = ext1 A -> mat_holds_on m A (in_tri t) a ->
  (forall i j m' g, i < ext0 A -> j < ext1 A -> in_tri t i j -> mst m m' A (in_tri t) g -> g i j = a i j ->
     succeeds (body i j) m' (fun _ m'' => mst m m'' A (in_tri t) (fset2 g i j (u i j)))) ->
  succeeds (for_range 0 (ext1 A) (fun j => for_range (tri_lo t j) (tri_hi t (ext0 A) j) (fun i => body i j))) m
    (fun _ m' => mat_holds_on m' A (in_tri t) u /\ changes_only m m' (mcells_on A (in_tri t))).
Proof.
  intros m A t a u body Hsq HA Hb.
  eapply wp_conseq.
  { apply wp_cols with (m0 := m) (C := A) (P := in_tri t) (c0 := a) (f := u)
      (lo := tri_lo t) (hi := tri_hi t (ext0 A)); auto using mst_init.
    - intros j Hj. destruct t; simpl; lia.
    - intros i j m' g Hj Hi Hst Hg. apply in_tri_range in Hi; [|lia]. destruct Hi. apply Hb; auto. }
  intros [] m' H. eapply mst_done; [exact H|]. intros i j Hi Hj Ht. destruct t; simpl in *; bcase.
Qed.

(** The same, preceded in each column j by A(j,j) = re(A(j,j)). *)
Lemma wp_herm_cols : forall (m : mem O) A t a u body,
  ext0 A = ext1 A -> mwritable_on A (in_tri t) -> mat_holds_on m A (in_tri t) a ->
  (forall i j m' g, i < ext0 A -> j < ext1 A -> in_tri t i j -> mst m m' A (in_tri t) g ->
     g i j = (if i =? j then re (a i j) else a i j) ->
     succeeds (body i j) m' (fun _ m'' => mst m m'' A (in_tri t) (fset2 g i j (u i j)))) ->
  succeeds (for_range 0 (ext1 A) (fun j => bind (make_real A j) (fun _ =>
              for_range (tri_lo t j) (tri_hi t (ext0 A) j) (fun i => body i j)))) m
    (fun _ m' => mat_holds_on m' A (in_tri t) u /\ changes_only m m' (mcells_on A (in_tri t))).
Proof.
  intros m A t a u body Hsq Hw HA Hb.
  assert (forall j, in_tri t j j) as Hd by (destruct t; simpl; auto).
  apply wp_for_range with (I := fun k m' => mst m m' A (in_tri t) (fun i j => if j <? k then u i j else a i j)); try lia.
  - eapply mst_ext; [|apply mst_init; exact HA]. intros; bcase.
  - intros j m1 Hj H1. apply wp_bind. unfold make_real. apply wp_bind.
    eapply wp_mget; [apply H1|lia|lia|apply Hd|]. bdec.
    eapply wp_mset; eauto; try lia. intros m2 H2.
    apply wp_for_range with (I := fun k m' => mst m m' A (in_tri t)
      (fun i j' => if j' <? j then u i j' else
        if (j' =? j) then if (i <? k) then u i j' else (if i =? j then re (a i j) else a i j) else a i j')).
    + destruct t; simpl; lia.
    + eapply mst_ext; [|exact H2]. intros i' j' Hi' Hj' Ht. unfold fset2.
      destruct t; simpl in *; bcase.
    + intros i m3 Hi H3. apply in_tri_range in Hi; [|lia]. destruct Hi as [Ht Hi].
      eapply wp_conseq; [eapply Hb; eauto; try lia|].
      * bdec. auto.
      * intros [] m4 H4. eapply mst_ext; [|exact H4]. intros i' j' _ _ _. unfold fset2. bcase.
    + intros m3 H3. eapply mst_ext; [|exact H3]. intros i' j' Hi' Hj' Ht. destruct t; simpl in *; bcase.
  - intros m1 H1. eapply mst_done; [exact H1|]. intros; bcase.
Qed.

Lemma wp_vget_mst : forall (m m' : mem O) A (P : nat -> nat -> Prop) g x f i (Q : O -> mem O -> Prop),
  vec_holds m x f -> disjoint (vcells x) (mcells_on A P) -> mst m m' A P g -> i < vext x ->
  Q (f i) m' -> succeeds (vget x i) m' Q.
Proof.
  intros m m' A P g x f i Q Hx Hd Hst Hi HQ. eapply wp_vget; eauto.
  eapply vec_holds_frame; [exact Hx|apply Hst|exact Hd].
Qed.

(** * General *)
Lemma ger_ok : forall (m : mem O) x y A a f g,
  vext x = ext0 A -> vext y = ext1 A ->
  mat_holds m A a -> vec_holds m x f -> vec_holds m y g -> mwritable A ->
  disjoint (vcells x) (mcells A) -> disjoint (vcells y) (mcells A) ->
  succeeds (matrix_rank_1_update x y A) m (fun _ m' =>
    mat_holds m' A (fun i j => a i j + f i * g j) /\ changes_only m m' (mcells A)).
Proof.
  intros m x y A a f g Hx Hy HA Hf Hg Hw Hdx Hdy. eapply wp_conseq.
  { unfold matrix_rank_1_update. apply wp_rows with (m0 := m) (C := A) (P := all2) (c0 := a)
      (f := fun i j => a i j + f i * g j) (lo := fun _ => 0) (hi := fun _ => ext1 A); auto using mst_init; try lia.
    intros i j m' h Hi Hj Hst Hh.
    apply wp_bind. eapply wp_vget_mst with (x := x); eauto; try lia.
    apply wp_bind. eapply wp_vget_mst with (x := y); eauto; try lia.
    eapply wp_macc_add; eauto; try lia. exact I. rewrite Hh. auto. }
  intros [] m' H. eapply mst_done; [exact H|]. intros; bcase.
Qed.
Lemma gerc_ok : forall (m : mem O) fix_nc nc x y A a f g,
  (forall v : O, conj (conj v) = v) -> (nc = true -> forall v : O, conj v = v) ->
  vext x = ext0 A -> vext y = ext1 A ->
  mat_holds m A a -> vec_holds m x f -> vec_holds m y g -> mwritable A ->
  disjoint (vcells x) (mcells A) -> disjoint (vcells y) (mcells A) ->
  succeeds (matrix_rank_1_update_c fix_nc nc x y A) m (fun _ m' =>
    mat_holds m' A (fun i j => a i j + f i * conj (g j)) /\ changes_only m m' (mcells A)).
Proof.
  intros m fix_nc nc x y A a f g Hcc Hnc Hx Hy HA Hf Hg Hw Hdx Hdy.
  unfold matrix_rank_1_update_c. apply ger_ok; auto. apply conjugated_v_holds; auto.
Qed.

(** * Symmetric *)
Ltac vg := apply wp_bind; eapply wp_vget_mst; [eassumption|eassumption|eassumption|lia|].

Lemma syr_alpha_ok : forall (m : mem O) alpha x A t a f,
  ext0 A = ext1 A -> vext x = ext0 A ->
  mat_holds_on m A (in_tri t) a -> vec_holds m x f -> mwritable_on A (in_tri t) ->
  disjoint (vcells x) (mcells_on A (in_tri t)) ->
  succeeds (symmetric_matrix_rank_1_update_alpha alpha x A t) m (fun _ m' =>
    mat_holds_on m' A (in_tri t) (fun i j => a i j + alpha * f i * f j) /\
    changes_only m m' (mcells_on A (in_tri t))).
Proof.
  intros m alpha x A t a f Hsq Hx HA Hf Hw Hd. unfold symmetric_matrix_rank_1_update_alpha.
  apply wp_tri_cols with (a := a); auto.
  intros i j m' g Hi Hj Ht Hst Hg. vg. vg. eapply wp_macc_add; eauto. rewrite Hg; auto.
Qed.
Lemma syr_ok : forall (m : mem O) x A t a f,
  ext0 A = ext1 A -> vext x = ext0 A ->
  mat_holds_on m A (in_tri t) a -> vec_holds m x f -> mwritable_on A (in_tri t) ->
  disjoint (vcells x) (mcells_on A (in_tri t)) ->
  succeeds (symmetric_matrix_rank_1_update x A t) m (fun _ m' =>
    mat_holds_on m' A (in_tri t) (fun i j => a i j + f i * f j) /\
    changes_only m m' (mcells_on A (in_tri t))).
Proof.
  intros m x A t a f Hsq Hx HA Hf Hw Hd. unfold symmetric_matrix_rank_1_update.
  apply wp_tri_cols with (a := a); auto.
  intros i j m' g Hi Hj Ht Hst Hg. vg. vg. eapply wp_macc_add; eauto. rewrite Hg; auto.
Qed.
Lemma syr2_ok : forall (m : mem O) x y A t a f g,
  ext0 A = ext1 A -> vext x = ext0 A -> vext y = ext0 A ->
  mat_holds_on m A (in_tri t) a -> vec_holds m x f -> vec_holds m y g -> mwritable_on A (in_tri t) ->
  disjoint (vcells x) (mcells_on A (in_tri t)) -> disjoint (vcells y) (mcells_on A (in_tri t)) ->
  succeeds (symmetric_matrix_rank_2_update x y A t) m (fun _ m' =>
    mat_holds_on m' A (in_tri t) (fun i j => a i j + (f i * g j + g i * f j)) /\
    changes_only m m' (mcells_on A (in_tri t))).
Proof.
  intros m x y A t a f g Hsq Hx Hy HA Hf Hg Hw Hdx Hdy. unfold symmetric_matrix_rank_2_update.
  apply wp_tri_cols with (a := a); auto.
  intros i j m' h Hi Hj Ht Hst Hh. 
  apply wp_bind; eapply wp_vget_mst with (x := x); eauto; try lia.
  apply wp_bind; eapply wp_vget_mst with (x := y); eauto; try lia.
  apply wp_bind; eapply wp_vget_mst with (x := y); eauto; try lia.
  apply wp_bind; eapply wp_vget_mst with (x := x); eauto; try lia.
  eapply wp_macc_add; eauto. rewrite Hh; auto.
Qed.

(** * Hermitian *)
Definition herm_diag (a : nat -> nat -> O) (i j : nat) : O := if i =? j then re (a i j) else a i j.

Lemma her_alpha_ok : forall (m : mem O) alpha x A t a f,
  ext0 A = ext1 A -> vext x = ext0 A ->
  mat_holds_on m A (in_tri t) a -> vec_holds m x f -> mwritable_on A (in_tri t) ->
  disjoint (vcells x) (mcells_on A (in_tri t)) ->
  succeeds (hermitian_matrix_rank_1_update_alpha alpha x A t) m (fun _ m' =>
    mat_holds_on m' A (in_tri t) (fun i j => herm_of t a i j + alpha * f i * conj (f j)) /\
    changes_only m m' (mcells_on A (in_tri t))).
Proof.
  intros m alpha x A t a f Hsq Hx HA Hf Hw Hd. unfold hermitian_matrix_rank_1_update_alpha.
  eapply wp_conseq.
  { apply wp_herm_cols with (a := a) (u := fun i j => herm_diag a i j + alpha * f i * conj (f j)); auto.
    intros i j m' g Hi Hj Ht Hst Hg. vg. vg. eapply wp_macc_add; eauto. rewrite Hg; auto. }
  intros [] m' [H1 H2]; split; auto. eapply mat_holds_on_ext; [|exact H1].
  intros i j _ _ Ht. f_equal. unfold herm_diag, herm_of. destruct t; simpl in *; bcase.
Qed.
Lemma her_ok : forall (m : mem O) x A t a f,
  ext0 A = ext1 A -> vext x = ext0 A ->
  mat_holds_on m A (in_tri t) a -> vec_holds m x f -> mwritable_on A (in_tri t) ->
  disjoint (vcells x) (mcells_on A (in_tri t)) ->
  succeeds (hermitian_matrix_rank_1_update x A t) m (fun _ m' =>
    mat_holds_on m' A (in_tri t) (fun i j => herm_of t a i j + f i * conj (f j)) /\
    changes_only m m' (mcells_on A (in_tri t))).
Proof.
  intros m x A t a f Hsq Hx HA Hf Hw Hd. unfold hermitian_matrix_rank_1_update.
  eapply wp_conseq.
  { apply wp_herm_cols with (a := a) (u := fun i j => herm_diag a i j + f i * conj (f j)); auto.
    intros i j m' g Hi Hj Ht Hst Hg. vg. vg. eapply wp_macc_add; eauto. rewrite Hg; auto. }
  intros [] m' [H1 H2]; split; auto. eapply mat_holds_on_ext; [|exact H1].
  intros i j _ _ Ht. f_equal. unfold herm_diag, herm_of. destruct t; simpl in *; bcase.
Qed.
Lemma her2_ok : forall (m : mem O) x y A t a f g,
  ext0 A = ext1 A -> vext x = ext0 A -> vext y = ext0 A ->
  mat_holds_on m A (in_tri t) a -> vec_holds m x f -> vec_holds m y g -> mwritable_on A (in_tri t) ->
  disjoint (vcells x) (mcells_on A (in_tri t)) -> disjoint (vcells y) (mcells_on A (in_tri t)) ->
  succeeds (hermitian_matrix_rank_2_update x y A t) m (fun _ m' =>
    mat_holds_on m' A (in_tri t) (fun i j => herm_of t a i j + (f i * conj (g j) + g i * conj (f j))) /\
    changes_only m m' (mcells_on A (in_tri t))).
Proof.
  intros m x y A t a f g Hsq Hx Hy HA Hf Hg Hw Hdx Hdy. unfold hermitian_matrix_rank_2_update.
  eapply wp_conseq.
  { apply wp_herm_cols with (a := a) (u := fun i j => herm_diag a i j + (f i * conj (g j) + g i * conj (f j))); auto.
    intros i j m' h Hi Hj Ht Hst Hh.
    apply wp_bind; eapply wp_vget_mst with (x := x); eauto; try lia.
    apply wp_bind; eapply wp_vget_mst with (x := y); eauto; try lia.
    apply wp_bind; eapply wp_vget_mst with (x := y); eauto; try lia.
    apply wp_bind; eapply wp_vget_mst with (x := x); eauto; try lia.
    eapply wp_macc_add; eauto. rewrite Hh; auto. }
  intros [] m' [H1 H2]; split; auto. eapply mat_holds_on_ext; [|exact H1].
  intros i j _ _ Ht. f_equal. unfold herm_diag, herm_of. destruct t; simpl in *; bcase.
Qed.
End Pf.

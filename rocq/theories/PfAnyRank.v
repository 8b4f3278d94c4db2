(** Proofs for objects of any rank. *)
From Coq Require Import List Arith Lia Bool.
From Verif Require Import Mem Scalar View Spec Wp Blas1 PfBlas1 AnyRank SpecAR.
Import ListNotations.
Set Implicit Arguments.

Section AnyRank.
Context {O : ops}.
Implicit Types x y z : obj O.

Lemma index_1 : forall x i, orank x = 1 -> (index_of x i <-> exists a, i = [a] /\ a < oext x 0).
Proof.
  intros x i Hr. unfold index_of. rewrite Hr. split.
  - intros [Hl Hb]. destruct i as [|a [|b i]]; try discriminate. exists a. split; auto. exact (Hb 0 Nat.lt_0_1).
  - intros (a & -> & Ha). split; auto. intros [|k] Hk; [exact Ha|lia].
Qed.
Lemma index_2 : forall x i, orank x = 2 ->
  (index_of x i <-> exists a b, i = [a; b] /\ a < oext x 0 /\ b < oext x 1).
Proof.
  intros x i Hr. unfold index_of. rewrite Hr. split.
  - intros [Hl Hb]. destruct i as [|a [|b [|c i]]]; try discriminate. exists a, b. split; auto.
    split; [apply (Hb 0); lia|apply (Hb 1); lia].
  - intros (a & b & -> & Ha & Hb). split; auto. intros [|[|k]] Hk; auto; lia.
Qed.

Lemma cells_1 : forall x, orank x = 1 -> forall a, vcells (as_vec x) a <-> ocells x a.
Proof.
  intros x Hr a. unfold vcells, ocells. split.
  - intros (i & Hi & ->). exists [i]. split; [apply index_1; eauto|reflexivity].
  - intros (i & Hi & ->). apply index_1 in Hi; auto. destruct Hi as (b & -> & Hb). exists b. split; auto.
Qed.
Lemma cells_2 : forall x, orank x = 2 -> forall a, mcells (as_mat x) a <-> ocells x a.
Proof.
  intros x Hr a. unfold mcells, mcells_on, ocells. split.
  - intros (i & j & Hi & Hj & _ & ->). exists [i; j]. split; [apply index_2; eauto 6|reflexivity].
  - intros (i & Hi & ->). apply index_2 in Hi; auto. destruct Hi as (b & c & -> & Hb & Hc).
    exists b, c. repeat split; auto.
Qed.
Lemma holds_1 : forall (m : mem O) x f, orank x = 1 ->
  (vec_holds m (as_vec x) (fun i => f [i]) <-> obj_holds m x f).
Proof.
  intros m x f Hr. split; intros H i Hi.
  - apply index_1 in Hi; auto. destruct Hi as (b & -> & Hb). exact (H b Hb).
  - apply (H [i]). apply index_1; eauto.
Qed.
Lemma holds_2 : forall (m : mem O) x f, orank x = 2 ->
  (mat_holds m (as_mat x) (fun i j => f [i; j]) <-> obj_holds m x f).
Proof.
  intros m x f Hr. split.
  - intros H i Hi. apply index_2 in Hi; auto. destruct Hi as (b & c & -> & Hb & Hc). exact (H b c Hb Hc I).
  - intros H i j Hi Hj _. apply (H [i; j]). apply index_2; eauto 6.
Qed.
Lemma writable_1 : forall x, orank x = 1 -> owritable x -> vwritable (as_vec x).
Proof.
  intros x Hr [Ha Hu]. split; auto. intros i j Hi Hj He.
  assert ([i] = [j]) as E by (apply Hu; auto; apply index_1; eauto). congruence.
Qed.
Lemma writable_2 : forall x, orank x = 2 -> owritable x -> mwritable (as_mat x).
Proof.
  intros x Hr [Ha Hu]. split; auto. intros i j i' j' Hi Hj Hi' Hj' _ _ He. simpl in Hi, Hj, Hi', Hj'.
  assert ([i; j] = [i'; j']) as E by (apply Hu; auto; apply index_2; eauto 6). inversion E; auto.
Qed.
Lemma disjoint_1 : forall x y, orank x = 1 -> orank y = 1 ->
  disjoint (ocells x) (ocells y) -> disjoint (vcells (as_vec x)) (vcells (as_vec y)).
Proof. intros x y Hx Hy H a A B. apply (H a); [apply cells_1 in A|apply cells_1 in B]; auto. Qed.
Lemma disjoint_2 : forall x y, orank x = 2 -> orank y = 2 ->
  disjoint (ocells x) (ocells y) -> disjoint (mcells (as_mat x)) (mcells (as_mat y)).
Proof. intros x y Hx Hy H a A B. apply (H a); [apply cells_2 in A|apply cells_2 in B]; auto. Qed.
Lemma dora_1 : forall x y, orank x = 1 -> orank y = 1 ->
  disjoint_or_aligned x y -> disjoint_or_aligned_v (as_vec x) (as_vec y).
Proof.
  intros x y Hx Hy [H|H]; [left; apply disjoint_1; auto|right].
  intros i Hi. apply (H [i]). apply index_1; eauto.
Qed.
Lemma dora_2 : forall x y, orank x = 2 -> orank y = 2 ->
  disjoint_or_aligned x y -> disjoint_or_aligned_m (as_mat x) (as_mat y).
Proof.
  intros x y Hx Hy [H|H]; [left; apply disjoint_2; auto|right].
  intros i j Hi Hj. apply (H [i; j]). apply index_2; eauto 6.
Qed.
Lemma alloc_1 : forall (m : mem O) x, orank x = 1 -> allocated m (ocells x) -> allocated m (vcells (as_vec x)).
Proof. intros m x Hx H a Ha. apply H, cells_1; auto. Qed.
Lemma alloc_2 : forall (m : mem O) x, orank x = 2 -> allocated m (ocells x) -> allocated m (mcells (as_mat x)).
Proof. intros m x Hx H a Ha. apply H, cells_2; auto. Qed.
Lemma changes_1 : forall (m m' : mem O) x, orank x = 1 ->
  changes_only m m' (vcells (as_vec x)) -> changes_only m m' (ocells x).
Proof. intros m m' x Hx H a Ha. apply H. rewrite cells_1; auto. Qed.
Lemma changes_2 : forall (m m' : mem O) x, orank x = 2 ->
  changes_only m m' (mcells (as_mat x)) -> changes_only m m' (ocells x).
Proof. intros m m' x Hx H a Ha. apply H. rewrite cells_2; auto. Qed.

Lemma copy_any_ok : forall (m : mem O) x y f, same_shape x y -> orank x = 1 \/ orank x = 2 ->
  obj_holds m x f -> owritable y -> allocated m (ocells y) -> disjoint_or_aligned x y ->
  call_succeeds (copy_any x y) m (fun m' => obj_holds m' y f /\ changes_only m m' (ocells y)).
Proof.
  intros m x y f [Hr He] Hk Hx Hw Ha Hd. unfold call_succeeds, copy_any. rewrite <- Hr, Nat.eqb_refl.
  destruct Hk as [Hk|Hk]; rewrite Hk in *; symmetry in Hr; simpl; eexists; (split; [reflexivity|]).
  - eapply wp_conseq; [eapply copy_1_ok with (f := fun i => f [i])|].
    + apply (He 0); lia.
    + apply holds_1; auto.
    + apply writable_1; auto.
    + apply alloc_1; auto.
    + apply dora_1; auto.
    + intros [] m' [A B]. split; [apply holds_1; auto|apply changes_1; auto].
  - eapply wp_conseq; [eapply copy_2_ok with (f := fun i j => f [i; j])|].
    + apply (He 0); lia.
    + apply (He 1); lia.
    + apply holds_2; auto.
    + apply writable_2; auto.
    + apply alloc_2; auto.
    + apply dora_2; auto.
    + intros [] m' [A B]. split; [apply holds_2; auto|apply changes_2; auto].
Qed.

Lemma swap_any_ok : forall (m : mem O) x y f g, same_shape x y -> orank x = 1 \/ orank x = 2 ->
  obj_holds m x f -> obj_holds m y g -> owritable x -> owritable y -> disjoint (ocells x) (ocells y) ->
  call_succeeds (swap_any x y) m (fun m' => obj_holds m' x g /\ obj_holds m' y f /\
    changes_only m m' (fun a => ocells x a \/ ocells y a)).
Proof.
  intros m x y f g [Hr He] Hk Hx Hy Hw Hw' Hd. unfold call_succeeds, swap_any. rewrite <- Hr, Nat.eqb_refl.
  destruct Hk as [Hk|Hk]; rewrite Hk in *; symmetry in Hr; simpl; eexists; (split; [reflexivity|]).
  - eapply wp_conseq; [eapply swap_1_ok with (f := fun i => f [i]) (g := fun i => g [i])|].
    + apply (He 0); lia.
    + apply holds_1; auto.
    + apply holds_1; auto.
    + apply writable_1; auto.
    + apply writable_1; auto.
    + apply disjoint_1; auto.
    + intros [] m' (A & B & C). split; [apply holds_1; auto|split; [apply holds_1; auto|]].
      intros a Ha. apply C. rewrite 2!cells_1; auto.
  - eapply wp_conseq; [eapply swap_2_ok with (f := fun i j => f [i; j]) (g := fun i j => g [i; j])|].
    + apply (He 0); lia.
    + apply (He 1); lia.
    + apply holds_2; auto.
    + apply holds_2; auto.
    + apply writable_2; auto.
    + apply writable_2; auto.
    + apply disjoint_2; auto.
    + intros [] m' (A & B & C). split; [apply holds_2; auto|split; [apply holds_2; auto|]].
      intros a Ha. apply C. rewrite 2!cells_2; auto.
Qed.

Lemma scale_any_ok : forall (m : mem O) alpha x f, orank x = 1 \/ orank x = 2 ->
  obj_holds m x f -> owritable x ->
  call_succeeds (scale_any alpha x) m (fun m' =>
    obj_holds m' x (fun i => (f i * alpha)%sc) /\ changes_only m m' (ocells x)).
Proof.
  intros m alpha x f Hk Hx Hw. unfold call_succeeds, scale_any.
  destruct Hk as [Hk|Hk]; rewrite Hk in *; simpl; eexists; (split; [reflexivity|]).
  - eapply wp_conseq; [eapply scale_1_ok with (f := fun i => f [i])|].
    + apply holds_1; auto.
    + apply writable_1; auto.
    + intros [] m' [A B]. split; [|apply changes_1; auto].
      apply (@holds_1 m' x (fun i => (f i * alpha)%sc)); auto.
  - eapply wp_conseq; [eapply scale_2_ok with (f := fun i j => f [i; j])|].
    + apply holds_2; auto.
    + apply writable_2; auto.
    + intros [] m' [A B]. split; [|apply changes_2; auto].
      apply (@holds_2 m' x (fun i => (f i * alpha)%sc)); auto.
Qed.

Lemma add_any_ok : forall (m : mem O) x y z f g, same_shape x z -> same_shape y z ->
  orank z = 1 \/ orank z = 2 -> obj_holds m x f -> obj_holds m y g ->
  owritable z -> allocated m (ocells z) -> disjoint_or_aligned x z -> disjoint_or_aligned y z ->
  call_succeeds (add_any x y z) m (fun m' =>
    obj_holds m' z (fun i => (f i + g i)%sc) /\ changes_only m m' (ocells z)).
Proof.
  intros m x y z f g [Hr He] [Hr' He'] Hk Hx Hy Hw Ha Hd Hd'. unfold call_succeeds, add_any.
  destruct Hk as [Hk|Hk]; rewrite Hr, Hr', Hk in *; simpl; eexists; (split; [reflexivity|]).
  - eapply wp_conseq; [eapply add_1_ok with (f := fun i => f [i]) (g := fun i => g [i])|].
    + apply (He 0); lia.
    + apply (He' 0); lia.
    + apply holds_1; auto.
    + apply holds_1; auto.
    + apply writable_1; auto.
    + apply alloc_1; auto.
    + apply dora_1; auto.
    + apply dora_1; auto.
    + intros [] m' [A B]. split; [|apply changes_1; auto].
      apply (@holds_1 m' z (fun i => (f i + g i)%sc)); auto.
  - eapply wp_conseq; [eapply add_2_ok with (f := fun i j => f [i; j]) (g := fun i j => g [i; j])|].
    + apply (He 0); lia.
    + apply (He 1); lia.
    + apply (He' 0); lia.
    + apply (He' 1); lia.
    + apply holds_2; auto.
    + apply holds_2; auto.
    + apply writable_2; auto.
    + apply alloc_2; auto.
    + apply dora_2; auto.
    + apply dora_2; auto.
    + intros [] m' [A B]. split; [|apply changes_2; auto].
      apply (@holds_2 m' z (fun i => (f i + g i)%sc)); auto.
Qed.

(** Which calls compile: equal ranks, at most two. *)
Lemma copy_any_compiles : forall x y, copy_any x y <> None <-> orank x = orank y /\ orank x <= 2.
Proof.
  intros x y. unfold copy_any. destruct (Nat.eqb_spec (orank x) (orank y)); destruct (Nat.leb_spec (orank x) 2);
    simpl; split; try congruence; intuition (try congruence; try lia).
Qed.
Lemma swap_any_compiles : forall x y, swap_any x y <> None <-> orank x = orank y /\ orank x <= 2.
Proof.
  intros x y. unfold swap_any. destruct (Nat.eqb_spec (orank x) (orank y)); destruct (Nat.leb_spec (orank x) 2);
    simpl; split; try congruence; intuition (try congruence; try lia).
Qed.
Lemma scale_any_compiles : forall alpha x, scale_any alpha x <> None <-> orank x <= 2.
Proof.
  intros alpha x. unfold scale_any. destruct (Nat.leb_spec (orank x) 2);
    simpl; split; try congruence; intuition (try congruence; try lia).
Qed.
Lemma add_any_compiles : forall x y z, add_any x y z <> None <->
  orank x = orank z /\ orank y = orank z /\ orank z <= 2.
Proof.
  intros x y z. unfold add_any. destruct (Nat.eqb_spec (orank x) (orank y)); destruct (Nat.eqb_spec (orank x) (orank z));
  destruct (Nat.leb_spec (orank z) 2);
    simpl; split; try congruence; intuition (try congruence; try lia).
Qed.
Lemma any_compiles : forall alpha x y z,
  (copy_any x y <> None <-> orank x = orank y /\ orank x <= 2) /\
  (swap_any x y <> None <-> orank x = orank y /\ orank x <= 2) /\
  (scale_any alpha x <> None <-> orank x <= 2) /\
  (add_any x y z <> None <-> orank x = orank z /\ orank y = orank z /\ orank z <= 2).
Proof.
  intros. split; [apply copy_any_compiles|split; [apply swap_any_compiles|split;
  [apply scale_any_compiles|apply add_any_compiles]]].
Qed.

(** Rank 0: every call compiles and leaves the memory as it is. *)
Lemma rank0_nothing : forall (m : mem O) alpha x y z, orank x = 0 -> orank y = 0 -> orank z = 0 ->
  call_succeeds (copy_any x y) m (fun m' => m' = m) /\
  call_succeeds (swap_any x y) m (fun m' => m' = m) /\
  call_succeeds (scale_any alpha x) m (fun m' => m' = m) /\
  call_succeeds (add_any x y z) m (fun m' => m' = m).
Proof.
  intros m alpha x y z Hx Hy Hz.
  unfold call_succeeds, copy_any, swap_any, scale_any, add_any. rewrite Hx, Hy, Hz. simpl.
  repeat split; eexists; (split; [reflexivity|]); exists tt, m; split; reflexivity.
Qed.
End AnyRank.

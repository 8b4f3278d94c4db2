(** Lemmas for C86: programs that differ only in related values have related runs. *)
From Coq Require Import List Arith NArith ZArith Bool Lia Relations.
From Verif Require Import Mem Scalar View Idx Blas1 Blas2 Blas3 Norm Par KK KKNorm SpecRel.
Import ListNotations.
Set Implicit Arguments.

Section Rel.
Context {O1 O2 : ops} (R : O1 -> O2 -> Prop).

(** The trees have the same shape. *)
Fixpoint like {A1 A2} (Q : A1 -> A2 -> Prop) (p1 : prog O1 A1) (p2 : prog O2 A2) : Prop :=
  match p1, p2 with
  | Ret x1, Ret x2 => Q x1 x2
  | Get a1 k1, Get a2 k2 => a1 = a2 /\ forall v1 v2, R v1 v2 -> like Q (k1 v1) (k2 v2)
  | Put a1 v1 k1, Put a2 v2 k2 => a1 = a2 /\ R v1 v2 /\ like Q k1 k2
  | Fail e1, Fail e2 => e1 = e2
  | _, _ => False
  end.

Lemma upd_related : forall m1 m2 a v1 v2, mem_related R m1 m2 -> R v1 v2 -> mem_related R (upd m1 a v1) (upd m2 a v2).
Proof. intros m1 m2 a v1 v2 H HR b. unfold upd. destruct (b =? a); auto. apply H. Qed.

Lemma like_runs : forall A1 A2 (Q : A1 -> A2 -> Prop) p1 p2, like Q p1 p2 -> related_runs R Q p1 p2.
Proof.
  intros A1 A2 Q. induction p1 as [x1|a1 k1 IH|a1 v1 k1 IH|e1]; intros [x2|a2 k2|a2 v2 k2|e2] H m1 m2 Hm; simpl in *; try tauto.
  - destruct H as [E H]. subst a2. assert (Hc := Hm a1). destruct (m1 a1) as [w1|], (m2 a1) as [w2|]; try tauto. 
    apply IH; auto.
  - destruct H as [E [HR H]]. subst a2. assert (Hc := Hm a1). destruct (m1 a1) as [w1|], (m2 a1) as [w2|]; try tauto.
    apply IH; auto. apply upd_related; auto.
Qed.

Lemma like_bind : forall A1 A2 B1 B2 (P : A1 -> A2 -> Prop) (Q : B1 -> B2 -> Prop) p1 p2 f1 f2,
  like P p1 p2 -> (forall x1 x2, P x1 x2 -> like Q (f1 x1) (f2 x2)) -> like Q (bind p1 f1) (bind p2 f2).
Proof.
  intros A1 A2 B1 B2 P Q. induction p1 as [x1|a1 k1 IH|a1 v1 k1 IH|e1]; intros [x2|a2 k2|a2 v2 k2|e2] f1 f2 H Hf; simpl in *; try tauto.
  - apply Hf; auto.
  - destruct H as [E H]. split; auto.
  - destruct H as [E [HR H]]. split; auto.
Qed.
Lemma like_for : forall n lo b1 b2, (forall i, like (fun _ _ => True) (b1 i) (b2 i)) ->
  like (fun _ _ : unit => True) (for_ lo n b1) (for_ lo n b2).
Proof. induction n; intros lo b1 b2 H; simpl; auto. apply like_bind with (P := fun _ _ => True); auto. Qed.
Lemma like_for_range : forall lo hi b1 b2, (forall i, like (fun _ _ => True) (b1 i) (b2 i)) ->
  like (fun _ _ : unit => True) (for_range lo hi b1) (for_range lo hi b2).
Proof. intros. apply like_for; auto. Qed.
Lemma like_for_down : forall n b1 b2, (forall i, like (fun _ _ => True) (b1 i) (b2 i)) ->
  like (fun _ _ : unit => True) (for_down n b1) (for_down n b2).
Proof. induction n; intros b1 b2 H; simpl; auto. apply like_bind with (P := fun _ _ => True); auto. Qed.
Lemma like_fold : forall A1 A2 (P : A1 -> A2 -> Prop) n lo b1 b2 x1 x2,
  (forall i y1 y2, P y1 y2 -> like P (b1 i y1) (b2 i y2)) -> P x1 x2 -> like P (fold_ lo n b1 x1) (fold_ lo n b2 x2).
Proof. induction n; intros lo b1 b2 x1 x2 H Hx; simpl; auto. apply like_bind with (P := P); auto. Qed.
Lemma like_fold_range : forall A1 A2 (P : A1 -> A2 -> Prop) lo hi b1 b2 x1 x2,
  (forall i y1 y2, P y1 y2 -> like P (b1 i y1) (b2 i y2)) -> P x1 x2 -> like P (fold_range lo hi b1 x1) (fold_range lo hi b2 x2).
Proof. intros. apply like_fold; auto. Qed.
Lemma like_when : forall b p1 p2, like (fun _ _ : unit => True) p1 p2 -> like (fun _ _ : unit => True) (when b p1) (when b p2).
Proof. intros [|] p1 p2 H; simpl; auto. Qed.
Lemma like_from : forall A1 A2 (Q : A1 -> A2 -> Prop) z k1 k2, (forall i, like Q (k1 i) (k2 i)) -> like Q (from_index z k1) (from_index z k2).
Proof. intros A1 A2 Q z k1 k2 H. unfold from_index. destruct (z <? 0)%Z; simpl; auto. Qed.
Lemma like_if : forall A1 A2 (Q : A1 -> A2 -> Prop) (b : bool) p1 p2 q1 q2, like Q p1 p2 -> like Q q1 q2 ->
  like Q (if b then p1 else q1) (if b then p2 else q2).
Proof. intros A1 A2 Q [|]; auto. Qed.

Context (H : respects R).
Lemma like_read : forall c1 c2 v1 v2, acc_related R c1 c2 -> R v1 v2 -> R (acc_read c1 v1) (acc_read c2 v2).
Proof.
  induction c1 as [|a1 c1 IH|c1 IH]; intros [|a2 c2|c2] v1 v2 Hc Hv; simpl in *; try tauto.
  - destruct Hc. apply resp_mul; auto.
  - apply resp_conj; auto.
Qed.
Lemma like_vget : forall x1 x2 i, vec_related R x1 x2 -> like R (vget x1 i) (vget x2 i).
Proof.
  intros x1 x2 i [Eb [Ee [Eo Ha]]]. unfold vget. rewrite Ee. destruct (i <? vext x2); simpl; auto.
  split; [unfold vaddr; rewrite Eb, Eo; auto|]. intros. apply like_read; auto.
Qed.
Lemma like_mget : forall A1 A2 i j, mat_related R A1 A2 -> like R (mget A1 i j) (mget A2 i j).
Proof.
  intros A1 A2 i j [Eb [E0 [E1 [El Ha]]]]. unfold mget. rewrite E0, E1. destruct ((i <? ext0 A2) && (j <? ext1 A2)); simpl; auto.
  split; [unfold maddr; rewrite Eb, E0, E1, El; auto|]. intros. apply like_read; auto.
Qed.
Lemma like_vset : forall x1 x2 i v1 v2, vec_related R x1 x2 -> R v1 v2 -> like (fun _ _ => True) (vset x1 i v1) (vset x2 i v2).
Proof.
  intros x1 x2 i v1 v2 [Eb [Ee [Eo Ha]]] Hv. unfold vset. destruct (vacc x1), (vacc x2); simpl in *; try tauto.
  rewrite Ee. destruct (i <? vext x2); simpl; auto. unfold vaddr. rewrite Eb, Eo. auto.
Qed.
Lemma like_mset : forall A1 A2 i j v1 v2, mat_related R A1 A2 -> R v1 v2 -> like (fun _ _ => True) (mset A1 i j v1) (mset A2 i j v2).
Proof.
  intros A1 A2 i j v1 v2 [Eb [E0 [E1 [El Ha]]]] Hv. unfold mset. destruct (macc A1), (macc A2); simpl in *; try tauto.
  rewrite E0, E1. destruct ((i <? ext0 A2) && (j <? ext1 A2)); simpl; auto. unfold maddr. rewrite Eb, E0, E1, El. auto.
Qed.
Lemma like_conjugated_v : forall b c x1 x2, vec_related R x1 x2 -> vec_related R (conjugated_v b c x1) (conjugated_v b c x2).
Proof.
  intros b c x1 x2 [Eb [Ee [Eo Ha]]]. unfold conjugated_v, vec_related; simpl. repeat split; auto.
  destruct (vacc x1), (vacc x2); simpl in *; try tauto; destruct (b && c); simpl; auto.
Qed.
Lemma like_view_v : forall x1 x2, vec_related R x1 x2 -> vec_related R (view_v x1) (view_v x2).
Proof. intros x1 x2 [Eb [Ee [Eo Ha]]]. unfold view_v, vec_related; simpl. auto. Qed.

(** * Parallel regions *)
Definition body_like := like (fun _ _ : unit => True).
Lemma task_like : forall p1 m1 p1' m1', task_step p1 m1 p1' m1' -> forall p2 m2, body_like p1 p2 -> mem_related R m1 m2 ->
  exists p2' m2', task_step p2 m2 p2' m2' /\ body_like p1' p2' /\ mem_related R m1' m2'.
Proof.
  intros p1 m1 p1' m1' Hs. destruct Hs as [a k m v E|a v k m w E]; intros p2 m2 Hl Hm; destruct p2 as [x2|a2 k2|a2 v2 k2|e2];
    unfold body_like in *; simpl in Hl; try tauto.
  - destruct Hl as [Ea Hl]. subst a2. assert (Hc := Hm a). rewrite E in Hc. destruct (m2 a) as [w2|] eqn:E2; try tauto.
    exists (k2 w2), m2. split; [constructor; auto|]. split; auto.
  - destruct Hl as [Ea [HR Hl]]. subst a2. assert (Hc := Hm a). rewrite E in Hc. destruct (m2 a) as [w2|] eqn:E2; try tauto.
    exists k2, (upd m2 a v2). split; [econstructor; eauto|]. split; auto. apply upd_related; auto.
Qed.
Lemma region_like : forall c1 c1', region_step c1 c1' -> forall ts2 m2, Forall2 body_like (fst c1) ts2 -> mem_related R (snd c1) m2 ->
  exists ts2' m2', region_step (ts2, m2) (ts2', m2') /\ Forall2 body_like (fst c1') ts2' /\ mem_related R (snd c1') m2'.
Proof.
  intros c1 c1' Hs. destruct Hs as [l1 p l2 m p' m' Ht]. intros ts2 m2 Hf Hm. simpl in *.
  apply Forall2_app_inv_l in Hf. destruct Hf as [t1 [t2 [F1 [F2 E]]]]. subst ts2.
  inversion F2 as [|? q ? t3 Hp F3]; subst. destruct (@task_like _ _ _ _ Ht q m2 Hp Hm) as [q' [m2' [S [L M]]]].
  exists (t1 ++ q' :: t3), m2'. split; [constructor; auto|]. split; auto. apply Forall2_app; auto.
Qed.
Lemma reach_like : forall c1 c1', clos_refl_trans_1n _ (@region_step O1) c1 c1' ->
  forall ts2 m2, Forall2 body_like (fst c1) ts2 -> mem_related R (snd c1) m2 ->
  exists ts2' m2', reachable (ts2, m2) (ts2', m2') /\ Forall2 body_like (fst c1') ts2' /\ mem_related R (snd c1') m2'.
Proof.
  intros c1 c1' Hr. induction Hr as [c|c d e Hs Hr IH]; intros ts2 m2 Hf Hm.
  - exists ts2, m2. split; auto. constructor.
  - destruct (@region_like _ _ Hs ts2 m2 Hf Hm) as [t [n [S [L M]]]]. destruct (IH t n L M) as [t' [n' [Rc [L' M']]]].
    exists t', n'. split; auto. econstructor; [exact S|exact Rc].
Qed.
Lemma finished_like : forall ts1 ts2, Forall2 body_like ts1 ts2 -> Forall (@finished O1) ts1 -> Forall (@finished O2) ts2.
Proof.
  intros ts1 ts2 Hf. induction Hf as [|p q ts1 ts2 Hp Hf IH]; intros HF; auto. inversion HF; subst. constructor; auto.
  destruct p, q; simpl in *; unfold body_like in *; simpl in *; tauto.
Qed.

Fixpoint par_like (p1 : par O1) (p2 : par O2) : Prop :=
  match p1, p2 with
  | PDone, PDone => True
  | PThrow, PThrow => True
  | PIllFormed, PIllFormed => True
  | PFor n1 b1 k1, PFor n2 b2 k2 => n1 = n2 /\ (forall i, body_like (b1 i) (b2 i)) /\ par_like k1 k2
  | _, _ => False
  end.
Lemma par_result_like : forall p1 m1 m1', par_result p1 m1 m1' -> forall p2 m2, par_like p1 p2 -> mem_related R m1 m2 ->
  exists m2', par_result p2 m2 m2' /\ mem_related R m1' m2'.
Proof.
  intros p1 m1 m1' Hr. induction Hr as [m|n b k m ts mm m' Hre Hf Hr IH]; intros [| | |n2 b2 k2] m2 Hl Hm; simpl in Hl; try tauto.
  - exists m2. split; auto. constructor.
  - destruct Hl as [En [Hb Hk]]. subst n2.
    destruct (@reach_like _ _ Hre (tasks n b2) m2) as [ts2 [mm2 [Rc [L M]]]]; simpl; auto.
    { unfold tasks. generalize (seq 0 n). induction l; simpl; constructor; auto. }
    destruct (IH k2 mm2 Hk M) as [m2' [Pr M']]. exists m2'. split; auto. econstructor; eauto. eapply finished_like; eauto.
Qed.
Lemma par_seq_like : forall p1 p2 q1 q2, par_like p1 p2 -> par_like q1 q2 -> par_like (par_seq p1 q1) (par_seq p2 q2).
Proof. induction p1; intros [] q1 q2 Hp Hq; simpl in *; try tauto. destruct Hp as [? [? ?]]. auto. Qed.
Lemma par_for_like : forall n lo b1 b2, (forall i, par_like (b1 i) (b2 i)) -> par_like (par_for lo n b1) (par_for lo n b2).
Proof. induction n; intros lo b1 b2 Hb; simpl; auto. apply par_seq_like; auto. Qed.
Lemma check_like : forall n m p1 p2, par_like p1 p2 -> par_like (check_eq n m p1) (check_eq n m p2).
Proof. intros. unfold check_eq. destruct (n =? m); simpl; auto. Qed.
Lemma view_like : forall A1 A2 k1 k2, mat_related R A1 A2 -> (forall V1 V2, mat_related R V1 V2 -> par_like (k1 V1) (k2 V2)) ->
  par_like (view_m A1 k1) (view_m A2 k2).
Proof.
  intros A1 A2 k1 k2 [Eb [E0 [E1 [El Ha]]]] Hk. unfold view_m. rewrite El.
  destruct (mlay A2) as [| | | | |l|]; simpl; auto; try (destruct l; simpl; auto); apply Hk; unfold mat_related; simpl; auto.
Qed.
End Rel.

Lemma like_flip : forall (O1 O2 : ops) (R : O1 -> O2 -> Prop) A1 A2 (Q : A1 -> A2 -> Prop) p1 p2, like R Q p1 p2 ->
  like (fun y x => R x y) (fun b a => Q a b) p2 p1.
Proof.
  intros O1 O2 R A1 A2 Q. induction p1 as [x1|a1 k1 IH|a1 v1 k1 IH|e1]; intros [x2|a2 k2|a2 v2 k2|e2] Hl; simpl in *; try tauto.
  - destruct Hl as [E Hl]. split; auto.
  - destruct Hl as [E [HR Hl]]. split; auto.
  - auto.
Qed.
Lemma par_flip : forall (O1 O2 : ops) (R : O1 -> O2 -> Prop) p1 p2, par_like R p1 p2 -> par_like (fun y x => R x y) p2 p1.
Proof.
  intros O1 O2 R. induction p1; intros [] Hl; simpl in *; try tauto. destruct Hl as [E [Hb Hk]]. split; auto. split; auto.
  intros i. apply like_flip in Hb || idtac. unfold body_like in *. specialize (Hb i). apply like_flip in Hb. exact Hb.
Qed.
Lemma mem_flip : forall (O1 O2 : ops) (R : O1 -> O2 -> Prop) m1 m2, mem_related R m1 m2 <-> mem_related (fun y x => R x y) m2 m1.
Proof.
  intros O1 O2 R m1 m2. split; intros H a; specialize (H a); destruct (m1 a), (m2 a); auto.
Qed.
Lemma par_like_related : forall (O1 O2 : ops) (R : O1 -> O2 -> Prop) p1 p2, par_like R p1 p2 -> related_par R p1 p2.
Proof.
  intros O1 O2 R p1 p2 Hl. split; [|split].
  - destruct p1, p2; simpl in Hl; try tauto; split; intros; discriminate || auto.
  - destruct p1, p2; simpl in Hl; try tauto; split; intros; discriminate || auto.
  - intros m1 m2 Hm. split; intros m' Hr.
    + eapply par_result_like; eauto.
    + apply mem_flip in Hm. destruct (@par_result_like _ _ (fun y x => R x y) _ _ _ Hr p1 m1 (@par_flip _ _ _ _ _ Hl) Hm) as [n [Pr M]].
      exists n. split; auto. apply mem_flip. exact M.
Qed.

(** The Kokkos algorithms under every schedule: results, agreement with the inline algorithms, and throws. *)
From Coq Require Import List Arith Lia Bool Relations.
From Verif Require Import Mem Scalar View Spec Idx Wp Loops Sums Blas2 Blas3 PfBlas1 PfBlas2 PfTrmv PfBlas2b PfRank PfBlas3 Par PfPar KK SpecK PfKK PfKK2 PfKK3 PfKK4.
Import ListNotations.
Set Implicit Arguments.
Local Open Scope sc_scope.
Local Open Scope prog_scope.

(** * Every execution completes *)
Section Ends.
Variable T : Type.
Lemma task_progress : forall (p : prog T unit) m, ~ stuck p m -> finished p \/ exists p' m', task_step p m p' m'.
Proof.
  intros p m H. destruct p as [x|a k|a v k|e].
  - left; exact I.
  - right. destruct (m a) as [v|] eqn:E; [exists (k v), m; constructor; auto|].
    exfalso. apply H. split; auto. intros p' m' Hs. inversion Hs; subst; congruence.
  - right. destruct (m a) as [w|] eqn:E; [exists k, (upd m a v); econstructor; eauto|].
    exfalso. apply H. split; auto. intros p' m' Hs. inversion Hs; subst; congruence.
  - exfalso. apply H. split; auto. intros p' m' Hs. inversion Hs.
Qed.
Lemma tasks_progress : forall (ts : list (prog T unit)) m, (forall p, In p ts -> ~ stuck p m) ->
  Forall (@finished T) ts \/ exists c, region_step (ts, m) c.
Proof.
  induction ts as [|p ts IH]; intros m H; [left; constructor|].
  destruct (@task_progress p m) as [Hf|(p' & m' & Hs)]; [apply H; left; auto| |].
  - destruct (IH m) as [Hf'|[[ts' m'] Hs]]; [intros; apply H; right; auto|left; constructor; auto|].
    right. inversion Hs as [l1 q l2 m1 q' m1' Hst]; subst. exists ((p :: l1) ++ q' :: l2, m').
    apply (region_task (p :: l1) l2 Hst).
  - right. exists ([] ++ p' :: ts, m'). apply (region_task [] ts Hs).
Qed.
Lemma reach_step : forall (c1 c2 c3 : list (prog T unit) * mem T), region_step c1 c2 -> reachable c2 c3 -> reachable c1 c3.
Proof. intros. econstructor; eauto. Qed.
Lemma region_completes : forall (ts : list (prog T unit)) m Q, region_ok ts m Q ->
  exists ts' m', reachable (ts, m) (ts', m') /\ Forall (@finished T) ts' /\ Q m'.
Proof.
  intros ts m Q H. pose proof (region_terminates (ts, m)) as A. remember (ts, m) as c eqn:E. revert ts m H E.
  induction A as [c _ IH]. intros ts m H ->.
  destruct (H ts m) as (_ & Hs & Hq); [constructor|].
  destruct (tasks_progress ts Hs) as [Hf|[[ts1 m1] Hstep]].
  - exists ts, m. split; [constructor|auto].
  - destruct (IH (ts1, m1) Hstep ts1 m1) as (ts' & m' & Hr & Hf & HQ); auto.
    + intros ts2 m2 Hr. apply H. eapply reach_step; eauto.
    + exists ts', m'. split; auto. eapply reach_step; eauto.
Qed.
Lemma par_completes : forall (p : par T) m (Q : mem T -> Prop), par_succeeds p m Q ->
  (exists m', par_result p m m') /\ forall m', par_result p m m' -> Q m'.
Proof.
  induction p as [ | | |n body k IH]; intros m Q H; simpl in H; try contradiction.
  - split; [exists m; constructor|]. intros m' Hr. inversion Hr; subst; auto.
  - split.
    + destruct (region_completes H) as (ts & m1 & Hr & Hf & Hk).
      destruct (IH m1 Q Hk) as [(m' & Hm') _]. exists m'. econstructor; eauto.
    + intros m' Hr. inversion Hr as [|n' b' k' m0 ts m1 m2 Hre Hf Hrk]; subst.
      destruct (H ts m1 Hre) as (_ & _ & Hq). apply (IH m1 Q (Hq Hf)); auto.
Qed.
(** To show that an algorithm does NOT establish P it suffices that it establishes something incompatible. *)
Lemma par_not : forall (p : par T) m (Q P : mem T -> Prop), par_succeeds p m Q -> (forall m', Q m' -> ~ P m') -> ~ par_succeeds p m P.
Proof.
  intros p m Q P HQ Hn HP. destruct (par_completes _ _ _ HQ) as [(m' & Hm') H1]. destruct (par_completes _ _ _ HP) as [_ H2].
  apply (Hn m'); auto.
Qed.
End Ends.

Section Results.
Context {O : ops}.

Lemma herm_of_real : forall n t (a : nat -> nat -> O) i j, (forall i, i < n -> re (a i i) = a i i) -> i < n ->
  in_tri t i j -> herm_of t a i j = a i j.
Proof.
  intros n t a i j H Hi Ht. unfold herm_of. destruct (Nat.eqb_spec i j) as [->|]; auto.
  destruct t; simpl in *; bdec; auto.
Qed.
Ltac real_ext L := eapply wp_conseq; [eapply L; eauto|]; intros [] m1 [Hh Hc]; split; [|exact Hc];
  eapply mat_holds_on_ext; [|exact Hh]; intros; cbv beta; erewrite herm_of_real; eauto.

(** * Rank updates *)
Lemma kk_ger_ok : forall (m : mem O) x y A a f g,
  vext x = ext0 A -> vext y = ext1 A -> plain_v x -> plain_v y -> plain_m A ->
  mat_holds m A a -> vec_holds m x f -> vec_holds m y g -> mwritable A ->
  disjoint (vcells x) (mcells A) -> disjoint (vcells y) (mcells A) ->
  par_succeeds (kk_matrix_rank_1_update x y A) m (fun m' =>
    mat_holds m' A
      (fun i j => a i j + f i * g j) /\
    changes_only m m' (mcells A)).
Proof. intros. eapply kk_ger_mst; eauto. Qed.
Lemma kk_gerc_ok : forall (m : mem O) x y A a f g,
  vext x = ext0 A -> vext y = ext1 A -> plain_v x -> plain_v y -> plain_m A ->
  mat_holds m A a -> vec_holds m x f -> vec_holds m y g -> mwritable A ->
  disjoint (vcells x) (mcells A) -> disjoint (vcells y) (mcells A) ->
  par_succeeds (kk_matrix_rank_1_update_conj x y A) m (fun m' =>
    mat_holds m' A
      (fun i j => a i j + f i * conj (g j)) /\
    changes_only m m' (mcells A)).
Proof. intros. eapply kk_gerc_mst; eauto. Qed.
Lemma kk_syr_ok : forall (m : mem O) x A t a f,
  ext0 A = ext1 A -> vext x = ext0 A -> plain_v x -> plain_m A ->
  mat_holds_on m A (in_tri t) a -> vec_holds m x f -> mwritable_on A (in_tri t) ->
  disjoint (vcells x) (mcells_on A (in_tri t)) ->
  par_succeeds (kk_symmetric_matrix_rank_1_update x A t) m (fun m' =>
    mat_holds_on m' A (in_tri t)
      (fun i j => a i j + f i * f j) /\
    changes_only m m' (mcells_on A (in_tri t))).
Proof. intros. eapply kk_syr_mst; eauto. Qed.
Lemma kk_syr2_ok : forall (m : mem O) x y A t a f g,
  ext0 A = ext1 A -> vext x = ext0 A -> vext y = ext0 A -> plain_v x -> plain_v y -> plain_m A ->
  mat_holds_on m A (in_tri t) a -> vec_holds m x f -> vec_holds m y g -> mwritable_on A (in_tri t) ->
  disjoint (vcells x) (mcells_on A (in_tri t)) -> disjoint (vcells y) (mcells_on A (in_tri t)) ->
  par_succeeds (kk_symmetric_matrix_rank_2_update x y A t) m (fun m' =>
    mat_holds_on m' A (in_tri t)
      (fun i j => a i j + (f i * g j + g i * f j)) /\
    changes_only m m' (mcells_on A (in_tri t))).
Proof. intros. eapply kk_syr2_mst; eauto. Qed.
Lemma kk_syrk_ok : forall (m : mem O) alpha A C t a c,
  ext0 C = ext1 C -> ext0 A = ext0 C -> plain_m A -> plain_m C ->
  mat_holds m A a -> mat_holds_on m C (in_tri t) c -> mwritable_on C (in_tri t) ->
  disjoint (mcells A) (mcells_on C (in_tri t)) ->
  par_succeeds (kk_symmetric_matrix_rank_k_update alpha A C t) m (fun m' =>
    mat_holds_on m' C (in_tri t)
      (fun i j => sum_from (c i j) 0 (ext1 A) (fun k => alpha * a i k * a j k)) /\
    changes_only m m' (mcells_on C (in_tri t))).
Proof. intros. eapply kk_syrk_mst; eauto. Qed.
Lemma kk_syr2k_ok : forall (m : mem O) A B C t a b c,
  ext0 C = ext1 C -> ext0 A = ext0 C -> ext0 B = ext0 C -> ext1 B = ext1 A -> plain_m A -> plain_m B -> plain_m C ->
  mat_holds m A a -> mat_holds m B b -> mat_holds_on m C (in_tri t) c -> mwritable_on C (in_tri t) ->
  disjoint (mcells A) (mcells_on C (in_tri t)) -> disjoint (mcells B) (mcells_on C (in_tri t)) ->
  par_succeeds (kk_symmetric_matrix_rank_2k_update A B C t) m (fun m' =>
    mat_holds_on m' C (in_tri t)
      (fun i j => sum_from (c i j) 0 (ext1 A) (fun k => a i k * b j k + b i k * a j k)) /\
    changes_only m m' (mcells_on C (in_tri t))).
Proof. intros. eapply kk_syr2k_mst; eauto. Qed.
Lemma kk_her_ok : forall (m : mem O) x A t a f,
  ext0 A = ext1 A -> vext x = ext0 A -> plain_v x -> plain_m A ->
  mat_holds_on m A (in_tri t) a -> vec_holds m x f -> mwritable_on A (in_tri t) ->
  disjoint (vcells x) (mcells_on A (in_tri t)) ->
  par_succeeds (kk_hermitian_matrix_rank_1_update x A t) m (fun m' =>
    mat_holds_on m' A (in_tri t)
      (fun i j => a i j + f i * conj (f j)) /\
    changes_only m m' (mcells_on A (in_tri t))).
Proof. intros. eapply kk_her_mst; eauto. Qed.
Lemma kk_her2_ok : forall (m : mem O) x y A t a f g,
  ext0 A = ext1 A -> vext x = ext0 A -> vext y = ext0 A -> plain_v x -> plain_v y -> plain_m A ->
  mat_holds_on m A (in_tri t) a -> vec_holds m x f -> vec_holds m y g -> mwritable_on A (in_tri t) ->
  disjoint (vcells x) (mcells_on A (in_tri t)) -> disjoint (vcells y) (mcells_on A (in_tri t)) ->
  par_succeeds (kk_hermitian_matrix_rank_2_update x y A t) m (fun m' =>
    mat_holds_on m' A (in_tri t)
      (fun i j => a i j + (f i * conj (g j) + g i * conj (f j))) /\
    changes_only m m' (mcells_on A (in_tri t))).
Proof. intros. eapply kk_her2_mst; eauto. Qed.
Lemma kk_herk_ok : forall (m : mem O) alpha A C t a c,
  ext0 C = ext1 C -> ext0 A = ext0 C -> plain_m A -> plain_m C ->
  mat_holds m A a -> mat_holds_on m C (in_tri t) c -> mwritable_on C (in_tri t) ->
  disjoint (mcells A) (mcells_on C (in_tri t)) ->
  par_succeeds (kk_hermitian_matrix_rank_k_update alpha A C t) m (fun m' =>
    mat_holds_on m' C (in_tri t)
      (fun i j => sum_from (c i j) 0 (ext1 A) (fun k => alpha * a i k * conj (a j k))) /\
    changes_only m m' (mcells_on C (in_tri t))).
Proof. intros. eapply kk_herk_mst; eauto. Qed.
Lemma kk_her2k_ok : forall (m : mem O) A B C t a b c,
  ext0 C = ext1 C -> ext0 A = ext0 C -> ext0 B = ext0 C -> ext1 B = ext1 A -> plain_m A -> plain_m B -> plain_m C ->
  mat_holds m A a -> mat_holds m B b -> mat_holds_on m C (in_tri t) c -> mwritable_on C (in_tri t) ->
  disjoint (mcells A) (mcells_on C (in_tri t)) -> disjoint (mcells B) (mcells_on C (in_tri t)) ->
  par_succeeds (kk_hermitian_matrix_rank_2k_update A B C t) m (fun m' =>
    mat_holds_on m' C (in_tri t)
      (fun i j => sum_from (c i j) 0 (ext1 A) (fun k => a i k * conj (b j k) + b i k * conj (a j k))) /\
    changes_only m m' (mcells_on C (in_tri t))).
Proof. intros. eapply kk_her2k_mst; eauto. Qed.
Lemma kk_ger_same : forall (m : mem O) x y A a f g,
  vext x = ext0 A -> vext y = ext1 A -> plain_v x -> plain_v y -> plain_m A ->
  mat_holds m A a -> vec_holds m x f -> vec_holds m y g -> mwritable A ->
  disjoint (vcells x) (mcells A) -> disjoint (vcells y) (mcells A) ->
  par_same_as (kk_matrix_rank_1_update x y A) (matrix_rank_1_update x y A) m.
Proof.
  intros.
  eapply par_same_mst with (C := A) (P := all2)
    (g := (fun i j => a i j + f i * g j));
  [exact all2_dec|match goal with H : plain_m A |- _ => apply H end|eapply ger_ok; eauto|intros; eapply kk_ger_mst; eauto].
Qed.
Lemma kk_gerc_same : forall (m : mem O) x y A a f g fix_nc nc,
  (forall v : O, conj (conj v) = v) -> (nc = true -> forall v : O, conj v = v) ->
  vext x = ext0 A -> vext y = ext1 A -> plain_v x -> plain_v y -> plain_m A ->
  mat_holds m A a -> vec_holds m x f -> vec_holds m y g -> mwritable A ->
  disjoint (vcells x) (mcells A) -> disjoint (vcells y) (mcells A) ->
  par_same_as (kk_matrix_rank_1_update_conj x y A) (matrix_rank_1_update_c fix_nc nc x y A) m.
Proof.
  intros.
  eapply par_same_mst with (C := A) (P := all2)
    (g := (fun i j => a i j + f i * conj (g j)));
  [exact all2_dec|match goal with H : plain_m A |- _ => apply H end|eapply gerc_ok; eauto|intros; eapply kk_gerc_mst; eauto].
Qed.
Lemma kk_syr_same : forall (m : mem O) x A t a f,
  ext0 A = ext1 A -> vext x = ext0 A -> plain_v x -> plain_m A ->
  mat_holds_on m A (in_tri t) a -> vec_holds m x f -> mwritable_on A (in_tri t) ->
  disjoint (vcells x) (mcells_on A (in_tri t)) ->
  par_same_as (kk_symmetric_matrix_rank_1_update x A t) (symmetric_matrix_rank_1_update x A t) m.
Proof.
  intros.
  eapply par_same_mst with (C := A) (P := (in_tri t))
    (g := (fun i j => a i j + f i * f j));
  [exact (@in_tri_dec t)|match goal with H : plain_m A |- _ => apply H end|eapply syr_ok; eauto|intros; eapply kk_syr_mst; eauto].
Qed.
Lemma kk_syr2_same : forall (m : mem O) x y A t a f g,
  ext0 A = ext1 A -> vext x = ext0 A -> vext y = ext0 A -> plain_v x -> plain_v y -> plain_m A ->
  mat_holds_on m A (in_tri t) a -> vec_holds m x f -> vec_holds m y g -> mwritable_on A (in_tri t) ->
  disjoint (vcells x) (mcells_on A (in_tri t)) -> disjoint (vcells y) (mcells_on A (in_tri t)) ->
  par_same_as (kk_symmetric_matrix_rank_2_update x y A t) (symmetric_matrix_rank_2_update x y A t) m.
Proof.
  intros.
  eapply par_same_mst with (C := A) (P := (in_tri t))
    (g := (fun i j => a i j + (f i * g j + g i * f j)));
  [exact (@in_tri_dec t)|match goal with H : plain_m A |- _ => apply H end|eapply syr2_ok; eauto|intros; eapply kk_syr2_mst; eauto].
Qed.
Lemma kk_syrk_same : forall (m : mem O) alpha A C t a c,
  ext0 C = ext1 C -> ext0 A = ext0 C -> plain_m A -> plain_m C ->
  mat_holds m A a -> mat_holds_on m C (in_tri t) c -> mwritable_on C (in_tri t) ->
  disjoint (mcells A) (mcells_on C (in_tri t)) ->
  par_same_as (kk_symmetric_matrix_rank_k_update alpha A C t) (symmetric_matrix_rank_k_update_alpha alpha A C t) m.
Proof.
  intros.
  eapply par_same_mst with (C := C) (P := (in_tri t))
    (g := (fun i j => sum_from (c i j) 0 (ext1 A) (fun k => alpha * a i k * a j k)));
  [exact (@in_tri_dec t)|match goal with H : plain_m C |- _ => apply H end|eapply syrk_alpha_ok; eauto|intros; eapply kk_syrk_mst; eauto].
Qed.
Lemma kk_syr2k_same : forall (m : mem O) A B C t a b c,
  ext0 C = ext1 C -> ext0 A = ext0 C -> ext0 B = ext0 C -> ext1 B = ext1 A -> plain_m A -> plain_m B -> plain_m C ->
  mat_holds m A a -> mat_holds m B b -> mat_holds_on m C (in_tri t) c -> mwritable_on C (in_tri t) ->
  disjoint (mcells A) (mcells_on C (in_tri t)) -> disjoint (mcells B) (mcells_on C (in_tri t)) ->
  par_same_as (kk_symmetric_matrix_rank_2k_update A B C t) (symmetric_matrix_rank_2k_update A B C t) m.
Proof.
  intros.
  eapply par_same_mst with (C := C) (P := (in_tri t))
    (g := (fun i j => sum_from (c i j) 0 (ext1 A) (fun k => a i k * b j k + b i k * a j k)));
  [exact (@in_tri_dec t)|match goal with H : plain_m C |- _ => apply H end|eapply syr2k_ok; eauto|intros; eapply kk_syr2k_mst; eauto].
Qed.
Lemma kk_her_same_real : forall (m : mem O) x A t a f,
  (forall i, i < ext0 A -> re (a i i) = a i i) ->
  ext0 A = ext1 A -> vext x = ext0 A -> plain_v x -> plain_m A ->
  mat_holds_on m A (in_tri t) a -> vec_holds m x f -> mwritable_on A (in_tri t) ->
  disjoint (vcells x) (mcells_on A (in_tri t)) ->
  par_same_as (kk_hermitian_matrix_rank_1_update x A t) (hermitian_matrix_rank_1_update x A t) m.
Proof.
  intros.
  eapply par_same_mst with (C := A) (P := (in_tri t))
    (g := (fun i j => a i j + f i * conj (f j)));
  [exact (@in_tri_dec t)|match goal with H : plain_m A |- _ => apply H end|real_ext (@her_ok O)|intros; eapply kk_her_mst; eauto].
Qed.
Lemma kk_her2_same_real : forall (m : mem O) x y A t a f g,
  (forall i, i < ext0 A -> re (a i i) = a i i) ->
  ext0 A = ext1 A -> vext x = ext0 A -> vext y = ext0 A -> plain_v x -> plain_v y -> plain_m A ->
  mat_holds_on m A (in_tri t) a -> vec_holds m x f -> vec_holds m y g -> mwritable_on A (in_tri t) ->
  disjoint (vcells x) (mcells_on A (in_tri t)) -> disjoint (vcells y) (mcells_on A (in_tri t)) ->
  par_same_as (kk_hermitian_matrix_rank_2_update x y A t) (hermitian_matrix_rank_2_update x y A t) m.
Proof.
  intros.
  eapply par_same_mst with (C := A) (P := (in_tri t))
    (g := (fun i j => a i j + (f i * conj (g j) + g i * conj (f j))));
  [exact (@in_tri_dec t)|match goal with H : plain_m A |- _ => apply H end|real_ext (@her2_ok O)|intros; eapply kk_her2_mst; eauto].
Qed.
Lemma kk_herk_same_real : forall (m : mem O) alpha A C t a c,
  (forall i, i < ext0 C -> re (c i i) = c i i) ->
  ext0 C = ext1 C -> ext0 A = ext0 C -> plain_m A -> plain_m C ->
  mat_holds m A a -> mat_holds_on m C (in_tri t) c -> mwritable_on C (in_tri t) ->
  disjoint (mcells A) (mcells_on C (in_tri t)) ->
  par_same_as (kk_hermitian_matrix_rank_k_update alpha A C t) (hermitian_matrix_rank_k_update_alpha alpha A C t) m.
Proof.
  intros.
  eapply par_same_mst with (C := C) (P := (in_tri t))
    (g := (fun i j => sum_from (c i j) 0 (ext1 A) (fun k => alpha * a i k * conj (a j k))));
  [exact (@in_tri_dec t)|match goal with H : plain_m C |- _ => apply H end|real_ext (@herk_alpha_ok O)|intros; eapply kk_herk_mst; eauto].
Qed.
Lemma kk_her2k_same_real : forall (m : mem O) A B C t a b c,
  (forall i, i < ext0 C -> re (c i i) = c i i) ->
  ext0 C = ext1 C -> ext0 A = ext0 C -> ext0 B = ext0 C -> ext1 B = ext1 A -> plain_m A -> plain_m B -> plain_m C ->
  mat_holds m A a -> mat_holds m B b -> mat_holds_on m C (in_tri t) c -> mwritable_on C (in_tri t) ->
  disjoint (mcells A) (mcells_on C (in_tri t)) -> disjoint (mcells B) (mcells_on C (in_tri t)) ->
  par_same_as (kk_hermitian_matrix_rank_2k_update A B C t) (hermitian_matrix_rank_2k_update A B C t) m.
Proof.
  intros.
  eapply par_same_mst with (C := C) (P := (in_tri t))
    (g := (fun i j => sum_from (c i j) 0 (ext1 A) (fun k => a i k * conj (b j k) + b i k * conj (a j k))));
  [exact (@in_tri_dec t)|match goal with H : plain_m C |- _ => apply H end|real_ext (@her2k_ok O)|intros; eapply kk_her2k_mst; eauto].
Qed.

(** * Throws *)
Lemma check_throws : forall n k (p : par O), check_eq n k p = PThrow <-> n <> k \/ p = PThrow.
Proof.
  intros n k p. unfold check_eq. destruct (Nat.eqb_spec n k); split; intros H; auto; try tauto.
Qed.
Lemma view_not_throw : forall (A : mat O) k, (forall B, k B <> PThrow) -> view_m A k <> PThrow.
Proof. intros A k H. unfold view_m. destruct (mlay A) as [ | | | | |[]| ]; auto; discriminate. Qed.
Lemma each_not_throw : forall (A : mat O) act, for_each_matrix_element A act <> PThrow.
Proof. intros A act. unfold for_each_matrix_element. destruct (ext1 A <? ext0 A); discriminate. Qed.
Lemma tri_not_throw : forall (A : mat O) t act, for_each_triangle_matrix_element A t act <> PThrow.
Proof. intros A t act. destruct t; discriminate. Qed.
Lemma par_seq_not_throw : forall (p q : par O), p <> PThrow -> q <> PThrow -> par_seq p q <> PThrow.
Proof. intros p q Hp Hq. destruct p; simpl; auto; discriminate. Qed.
Lemma par_for_not_throw : forall n lo (b : nat -> par O), (forall i, b i <> PThrow) -> par_for lo n b <> PThrow.
Proof. induction n as [|n IH]; intros lo b H; simpl; [discriminate|]. apply par_seq_not_throw; auto. Qed.
Ltac throws := unfold par_throws; rewrite ?check_throws;
  match goal with |- context [?p = PThrow] =>
    assert (p <> PThrow) by (repeat (apply view_not_throw; intros); first [apply each_not_throw | apply tri_not_throw | discriminate]) end;
  cut (forall P Q : Prop, P <-> Q -> P <-> Q); [|tauto]; intros _;
  split; intros; repeat match goal with H : _ \/ _ |- _ => destruct H end; try contradiction; try tauto; lia.

Lemma kk_ger_throws : forall (x y : vec O) A,
  par_throws (kk_matrix_rank_1_update x y A) <-> vext x <> ext0 A \/ vext y <> ext1 A.
Proof. intros. unfold kk_matrix_rank_1_update. throws. Qed.
Lemma kk_gerc_throws : forall (x y : vec O) A,
  par_throws (kk_matrix_rank_1_update_conj x y A) <-> vext x <> ext0 A \/ vext y <> ext1 A.
Proof. intros. unfold kk_matrix_rank_1_update_conj. throws. Qed.
Lemma kk_syr_throws : forall (x : vec O) A t,
  par_throws (kk_symmetric_matrix_rank_1_update x A t) <-> ext0 A <> ext1 A \/ vext x <> ext0 A.
Proof. intros. unfold kk_symmetric_matrix_rank_1_update. throws. Qed.
Lemma kk_syr2_throws : forall (x y : vec O) A t,
  par_throws (kk_symmetric_matrix_rank_2_update x y A t) <-> ext0 A <> ext1 A \/ vext x <> ext0 A \/ vext y <> ext0 A.
Proof. intros. unfold kk_symmetric_matrix_rank_2_update. throws. Qed.
Lemma kk_syrk_throws : forall (alpha : O) A C t,
  par_throws (kk_symmetric_matrix_rank_k_update alpha A C t) <-> ext0 A <> ext0 C \/ ext0 C <> ext1 C.
Proof. intros. unfold kk_symmetric_matrix_rank_k_update. throws. Qed.
Lemma kk_syr2k_throws : forall (A B C : mat O) t,
  par_throws (kk_symmetric_matrix_rank_2k_update A B C t) <-> ext0 A <> ext0 C \/ ext0 B <> ext0 C \/ ext0 C <> ext1 C \/ ext1 A <> ext1 B.
Proof. intros. unfold kk_symmetric_matrix_rank_2k_update. throws. Qed.
Lemma kk_her_throws : forall (x : vec O) A t,
  par_throws (kk_hermitian_matrix_rank_1_update x A t) <-> ext0 A <> ext1 A \/ vext x <> ext0 A.
Proof. intros. unfold kk_hermitian_matrix_rank_1_update. throws. Qed.
Lemma kk_her2_throws : forall (x y : vec O) A t,
  par_throws (kk_hermitian_matrix_rank_2_update x y A t) <-> ext0 A <> ext1 A \/ vext x <> ext0 A \/ vext y <> ext0 A.
Proof. intros. unfold kk_hermitian_matrix_rank_2_update. throws. Qed.
Lemma kk_herk_throws : forall (alpha : O) A C t,
  par_throws (kk_hermitian_matrix_rank_k_update alpha A C t) <-> ext0 A <> ext0 C \/ ext0 C <> ext1 C.
Proof. intros. unfold kk_hermitian_matrix_rank_k_update. throws. Qed.
Lemma kk_her2k_throws : forall (A B C : mat O) t,
  par_throws (kk_hermitian_matrix_rank_2k_update A B C t) <-> ext0 A <> ext0 C \/ ext0 B <> ext0 C \/ ext0 C <> ext1 C \/ ext1 A <> ext1 B.
Proof. intros. unfold kk_hermitian_matrix_rank_2k_update. throws. Qed.
Lemma kk_gemv_upd_throws : forall A (x y z : vec O),
  par_throws (kk_matrix_vector_product_upd A x y z) <-> ext1 A <> vext x \/ ext0 A <> vext y \/ ext0 A <> vext z.
Proof. intros. unfold kk_matrix_vector_product_upd. throws. Qed.
Lemma kk_mv_throws : forall fc A t (x y : vec O),
  par_throws (kk_sy_he_mv fc A t x y) <-> ext0 A <> ext1 A \/ ext1 A <> vext x \/ ext0 A <> vext y.
Proof. intros. unfold kk_sy_he_mv. throws. Qed.
Lemma kk_mv_upd_throws : forall fc A t (x y z : vec O),
  par_throws (kk_sy_he_mv_upd fc A t x y z) <-> ext0 A <> ext1 A \/ ext1 A <> vext x \/ ext0 A <> vext y \/ ext0 A <> vext z.
Proof. intros. unfold kk_sy_he_mv_upd. throws. Qed.
Lemma kk_trmv_throws : forall A t d (x y : vec O),
  par_throws (kk_triangular_matrix_vector_product A t d x y) <-> ext0 A <> ext1 A \/ ext1 A <> vext x \/ ext0 A <> vext y.
Proof. intros. unfold kk_triangular_matrix_vector_product. throws. Qed.
Lemma kk_trmv_upd_throws : forall A t d (x y z : vec O),
  par_throws (kk_triangular_matrix_vector_product_upd A t d x y z) <-> ext0 A <> ext1 A \/ ext1 A <> vext x \/ ext0 A <> vext y \/ ext0 A <> vext z.
Proof. intros. unfold kk_triangular_matrix_vector_product_upd. throws. Qed.
Lemma kk_left_throws : forall fc A t (B C : mat O),
  par_throws (kk_sy_he_left fc A t B C) <-> ext0 A <> ext1 A \/ ext1 A <> ext0 B \/ ext0 A <> ext0 C \/ ext1 B <> ext1 C.
Proof. intros. unfold kk_sy_he_left, check_left, kk_product. throws. Qed.
Lemma kk_left_upd_throws : forall fc A t (B E C : mat O),
  par_throws (kk_sy_he_left_upd fc A t B E C) <-> ext0 A <> ext1 A \/ ext1 A <> ext0 B \/ ext0 A <> ext0 C \/ ext1 B <> ext1 C \/ ext0 E <> ext0 C \/ ext1 E <> ext1 C.
Proof. intros. unfold kk_sy_he_left_upd, check_left, check_E, kk_product. throws. Qed.
Lemma kk_right_throws : forall fc A t (B C : mat O),
  par_throws (kk_sy_he_right fc A t B C) <-> ext0 A <> ext1 A \/ ext1 B <> ext0 A \/ ext0 B <> ext0 C \/ ext1 A <> ext1 C.
Proof. intros. unfold kk_sy_he_right, check_right, kk_product. throws. Qed.
Lemma kk_symm_right_upd_throws : forall A t (B E C : mat O),
  par_throws (kk_symmetric_matrix_right_product_upd A t B E C) <-> ext0 A <> ext1 A \/ ext1 B <> ext0 A \/ ext0 B <> ext0 C \/ ext1 A <> ext1 C \/ ext0 E <> ext0 C \/ ext1 E <> ext1 C.
Proof. intros. unfold kk_symmetric_matrix_right_product_upd, check_right, check_E, kk_product. throws. Qed.
Lemma kk_hemm_right_upd_throws : forall A t (B E C : mat O),
  par_throws (kk_hermitian_matrix_right_product_upd A t B E C) <-> ext0 A <> ext1 A \/ ext1 B <> ext0 A \/ ext0 B <> ext0 C \/ ext1 A <> ext1 C.
Proof. intros. unfold kk_hermitian_matrix_right_product_upd, check_right, kk_product. throws. Qed.
Ltac throws_for := unfold par_throws; rewrite ?check_throws;
  match goal with |- context [?p = PThrow] =>
    assert (p <> PThrow) by (repeat (apply view_not_throw; intros); apply par_for_not_throw; intros; discriminate) end;
  split; intros; repeat match goal with H : _ \/ _ |- _ => destruct H end; try contradiction; try tauto; lia.
Lemma kk_trmm_left_throws : forall A t (B C : mat O),
  par_throws (kk_triangular_matrix_left_product_unit A t B C) <-> ext0 A <> ext1 A \/ ext1 A <> ext0 B \/ ext0 A <> ext0 C \/ ext1 B <> ext1 C.
Proof. intros. unfold kk_triangular_matrix_left_product_unit, check_left, kk_trmm_left. throws_for. Qed.
Lemma kk_trmm_right_throws : forall A t (B C : mat O),
  par_throws (kk_triangular_matrix_right_product_unit A t B C) <-> ext0 A <> ext1 A \/ ext1 B <> ext0 A \/ ext0 B <> ext0 C \/ ext1 A <> ext1 C.
Proof. intros. unfold kk_triangular_matrix_right_product_unit, check_right, kk_trmm_right. throws_for. Qed.
Lemma kk_trmm_left_inplace_throws : forall A t (C : mat O),
  par_throws (kk_triangular_matrix_left_product_inplace_unit A t C) <-> ext0 A <> ext1 A \/ ext1 A <> ext0 C.
Proof. intros. unfold kk_triangular_matrix_left_product_inplace_unit, check_left, kk_trmm_left. throws_for. Qed.
Lemma kk_trmm_right_inplace_throws : forall A t (C : mat O),
  par_throws (kk_triangular_matrix_right_product_inplace_unit A t C) <-> ext0 A <> ext1 A \/ ext1 C <> ext0 A.
Proof. intros. unfold kk_triangular_matrix_right_product_inplace_unit, check_right, kk_trmm_right. throws_for. Qed.
End Results.

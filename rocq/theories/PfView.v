(** Proofs about View.v. *)
From Coq Require Import List Arith Lia Bool.
From Verif Require Import Mem Scalar View Spec Wp Loops PfBlas1.
Import ListNotations.
Set Implicit Arguments.
Local Open Scope sc_scope.

Section Pf.
Context {O : ops}.

Lemma vget_scaled : forall (alpha : O) x i m,
  run (vget (scaled_v alpha x) i) m =
  match run (vget x i) m with Ok v m' => Ok (alpha * v) m' | Err e m' => Err e m' end.
Proof. intros. unfold vget; simpl. destruct (i <? vext x); simpl; auto. unfold vaddr; simpl. destruct (m _); auto. Qed.
Lemma mget_scaled : forall (alpha : O) A i j m,
  run (mget (scaled_m alpha A) i j) m =
  match run (mget A i j) m with Ok v m' => Ok (alpha * v) m' | Err e m' => Err e m' end.
Proof. intros. unfold mget; simpl. destruct (_ && _); simpl; auto. unfold maddr; simpl. destruct (m _); auto. Qed.

Lemma scaled_v_holds : forall (m : mem O) alpha x f,
  vec_holds m x f -> vec_holds m (scaled_v alpha x) (fun i => alpha * f i).
Proof. intros m alpha x f H i Hi. destruct (H i Hi) as (v & Hv & Hf). exists v; split; auto. simpl. rewrite Hf; auto. Qed.
Lemma scaled_m_holds : forall (m : mem O) alpha A P f,
  mat_holds_on m A P f -> mat_holds_on m (scaled_m alpha A) P (fun i j => alpha * f i j).
Proof. intros m alpha A P f H i j Hi Hj HP. destruct (H i j Hi Hj HP) as (v & Hv & Hf). exists v; split; auto. simpl. rewrite Hf; auto. Qed.

(** A write to x is seen through the view. *)
Lemma scaled_v_lazy : forall (m : mem O) alpha x f i v,
  vec_holds m x f -> vwritable x -> i < vext x ->
  succeeds (bind (vset x i v) (fun _ => vget (scaled_v alpha x) i)) m
    (fun r m' => r = alpha * v /\ changes_only m m' (vcells x)).
Proof.
  intros m alpha x f i v H Hw Hi. apply wp_bind. eapply wp_vset; eauto using vst_init.
  intros m' Hst. eapply wp_vget; [apply scaled_v_holds, Hst | auto |]. cbv beta; rewrite fset_same. split; auto. apply Hst.
Qed.
Lemma scaled_m_lazy : forall (m : mem O) alpha A f i j v,
  mat_holds m A f -> mwritable A -> i < ext0 A -> j < ext1 A ->
  succeeds (bind (mset A i j v) (fun _ => mget (scaled_m alpha A) i j)) m
    (fun r m' => r = alpha * v /\ changes_only m m' (mcells A)).
Proof.
  intros m alpha A f i j v H Hw Hi Hj. apply wp_bind. eapply wp_mset with (P := all2); eauto using mst_init. exact I.
  intros m' Hst. eapply wp_mget with (P := all2); [apply scaled_m_holds, Hst | auto | auto | exact I |].
  cbv beta; rewrite fset2_same. split; auto. apply Hst.
Qed.

Lemma conjugated_m_holds : forall (m : mem O) fix_nc nc A P f,
  (forall v : O, conj (conj v) = v) -> (nc = true -> forall v : O, conj v = v) ->
  mat_holds_on m A P f -> mat_holds_on m (conjugated_m fix_nc nc A) P (fun i j => conj (f i j)).
Proof.
  intros m fix_nc nc A P f Hcc Hnc H i j Hi Hj HP. destruct (H i j Hi Hj HP) as (v & Hv & Hf).
  exists v; split; auto. simpl. unfold conj_acc. rewrite <- Hf.
  destruct (macc A) as [|al c|c]; simpl; auto;
  destruct fix_nc; destruct nc; simpl; auto; rewrite Hnc; auto.
Qed.

Lemma conj_acc_twice : forall fix_nc nc (c : acc O),
  (fix_nc && nc = true -> forall c', c <> AConj c') ->
  conj_acc fix_nc nc (conj_acc fix_nc nc c) = c \/
  exists c', c = AConj (AConj c').
Proof.
  intros fix_nc nc c Hn. destruct c as [|al c|c]; simpl.
  - destruct (fix_nc && nc) eqn:E; simpl; auto. rewrite E; auto.
  - destruct (fix_nc && nc) eqn:E; simpl; auto. rewrite E; auto.
  - destruct (fix_nc && nc) eqn:E.
    + exfalso. eapply Hn; eauto.
    + destruct c as [|al c|c]; simpl; eauto; rewrite E; auto.
Qed.

(** * transposed *)
Lemma lmal : forall a b, 0 < b -> b <= a -> least_multiple_at_least a b = a.
Proof.
  intros a b Hb Ha. unfold least_multiple_at_least. destruct (Nat.eqb_spec a 0); [lia|].
  replace ((b + a - 1) / a)%nat with 1%nat; [lia|].
  replace (b + a - 1)%nat with (1 * a + (b - 1))%nat by lia.
  rewrite Nat.div_add_l by auto. rewrite Nat.div_small by lia. auto.
Qed.

Lemma transposed_off : forall fixp l e0 e1 l' i j,
  transposed_layout fixp l e0 e1 = Some l' -> layout_ok l e0 e1 -> i < e0 -> j < e1 ->
  off l' e1 e0 j i = off l e0 e1 i j.
Proof.
  intros fixp l e0 e1 l' i j H Hok Hi Hj. destruct l; simpl in *; try discriminate; inversion H; subst; simpl; try lia.
  - destruct fixp; simpl; auto. rewrite lmal; lia.
  - destruct fixp; simpl; auto. rewrite lmal; lia.
Qed.

Lemma transposed_span : forall fixp l e0 e1 l',
  transposed_layout fixp l e0 e1 = Some l' -> layout_ok l e0 e1 -> span_size l' e1 e0 = span_size l e0 e1.
Proof.
  intros fixp l e0 e1 l' H Hok. destruct l; simpl in *; try discriminate; inversion H; subst; simpl; auto.
  - f_equal; lia.
  - f_equal; lia.
  - rewrite (Nat.mul_comm e1). bcase. f_equal; lia.
  - destruct fixp; simpl; auto. rewrite (Nat.mul_comm e1). destruct (Nat.eqb_spec (e0 * e1) 0); auto.
    rewrite lmal by nia. f_equal; lia.
  - destruct fixp; simpl; auto. rewrite (Nat.mul_comm e1). destruct (Nat.eqb_spec (e0 * e1) 0); auto.
    rewrite lmal by nia. f_equal; lia.
Qed.

Lemma transposed_stride : forall fixp l e0 e1 l' r,
  transposed_layout fixp l e0 e1 = Some l' -> layout_ok l e0 e1 -> 0 < e0 -> 0 < e1 ->
  stride l' e1 e0 r = stride l e0 e1 (negb r).
Proof.
  intros fixp l e0 e1 l' r H Hok H0 H1. destruct l; simpl in *; try discriminate; inversion H; subst; simpl; auto;
    try (destruct fixp; simpl; auto; rewrite lmal by lia); destruct r; auto.
Qed.

Lemma transposed_unique : forall fixp l e0 e1 l',
  transposed_layout fixp l e0 e1 = Some l' -> layout_ok l e0 e1 -> layout_unique l e0 e1 -> layout_unique l' e1 e0.
Proof.
  intros fixp l e0 e1 l' H Hok Hu j i j' i' Hj Hi Hj' Hi' E.
  rewrite !(transposed_off fixp l H Hok) in E by auto. destruct (Hu _ _ _ _ Hi Hj Hi' Hj' E); auto.
Qed.

Lemma transposed_ok : forall fixp l e0 e1 l',
  transposed_layout fixp l e0 e1 = Some l' -> layout_ok l e0 e1 -> layout_ok l' e1 e0.
Proof.
  intros fixp l e0 e1 l' H Hok. destruct l; simpl in *; try discriminate; inversion H; subst; simpl; auto;
  destruct fixp; simpl; auto.
  - destruct e0; [lia|]. rewrite lmal; lia.
  - destruct e1; [lia|]. rewrite lmal; lia.
Qed.

Lemma off_stride : forall l e0 e1 s0 s1, stride l e0 e1 false = Some s0 -> stride l e0 e1 true = Some s1 ->
  forall i j, off l e0 e1 i j = (i * s0 + j * s1)%nat.
Proof.
  induction l as [| | t0 t1 | ld | ld | l IH | f]; simpl; intros e0 e1 s0 s1 H0 H1 i j;
    try (inversion H0; inversion H1; subst; lia); try discriminate.
  rewrite (IH e1 e0 s1 s0); auto; lia.
Qed.

Lemma off_lt_span : forall l e0 e1 n, span_size l e0 e1 = Some n -> layout_ok l e0 e1 ->
  forall i j, i < e0 -> j < e1 -> off l e0 e1 i j < n.
Proof.
  induction l as [| | t0 t1 | ld | ld | l IH | f]; simpl; intros e0 e1 n H Hok i j Hi Hj;
    try discriminate; try (eapply IH; eauto; fail); inversion H; subst; clear H.
  - nia.
  - nia.
  - destruct (Nat.eqb_spec (e0 * e1) 0); nia.
  - destruct (Nat.eqb_spec (e0 * e1) 0); nia.
  - destruct (Nat.eqb_spec (e0 * e1) 0); nia.
Qed.

(** left, right and padded mappings are unique *)
Lemma ld_unique : forall ld i j i' j', i < ld -> i' < ld -> (i + ld * j = i' + ld * j')%nat -> i = i' /\ j = j'.
Proof.
  intros ld i j i' j' Hi Hi' E.
  assert (j = j').
  { destruct (Nat.lt_trichotomy j j') as [H|[H|H]]; auto; exfalso; nia. }
  subst; split; auto. nia.
Qed.
Lemma layout_unique_std : forall l e0 e1, layout_ok l e0 e1 ->
  match l with LLeft | LRight | LLeftPad _ | LRightPad _ => layout_unique l e0 e1 | _ => True end.
Proof.
  intros l e0 e1 Hok; destruct l; simpl in *; auto; intros i j i' j' Hi Hj Hi' Hj' E; simpl in E.
  - eapply ld_unique; eauto.
  - destruct (@ld_unique e1 j i j' i'); auto; lia.
  - eapply ld_unique in E; eauto; lia.
  - destruct (@ld_unique ld j i j' i'); auto; lia.
Qed.

Lemma transposed_maddr : forall fixp (A At : mat O) i j,
  transposed fixp A = Some At -> layout_ok (mlay A) (ext0 A) (ext1 A) -> i < ext0 A -> j < ext1 A ->
  maddr At j i = maddr A i j.
Proof.
  intros fixp A At i j H Hok Hi Hj. unfold transposed in H.
  destruct (transposed_layout fixp (mlay A) (ext0 A) (ext1 A)) as [l'|] eqn:E; [|discriminate].
  inversion H; subst; clear H. unfold maddr; simpl. f_equal. eapply transposed_off; eauto.
Qed.
Lemma transposed_ext : forall fixp (A At : mat O),
  transposed fixp A = Some At -> ext0 At = ext1 A /\ ext1 At = ext0 A /\ macc At = macc A /\ mbase At = mbase A.
Proof.
  intros fixp A At H. unfold transposed in H.
  destruct (transposed_layout fixp (mlay A) (ext0 A) (ext1 A)) as [l'|] eqn:E; [|discriminate].
  inversion H; subst; auto.
Qed.
Lemma transposed_lay : forall fixp (A At : mat O),
  transposed fixp A = Some At -> layout_ok (mlay A) (ext0 A) (ext1 A) -> layout_ok (mlay At) (ext0 At) (ext1 At).
Proof.
  intros fixp A At H. unfold transposed in H.
  destruct (transposed_layout fixp (mlay A) (ext0 A) (ext1 A)) as [l'|] eqn:E; [|discriminate].
  inversion H; subst; simpl. eapply transposed_ok; eauto.
Qed.
Lemma transposed_holds : forall fixp (m : mem O) A At (P : nat -> nat -> Prop) a,
  transposed fixp A = Some At -> layout_ok (mlay A) (ext0 A) (ext1 A) ->
  mat_holds_on m A P a -> mat_holds_on m At (fun j i => P i j) (fun j i => a i j).
Proof.
  intros fixp m A At P a H Hok HA j i Hj Hi HP.
  destruct (transposed_ext fixp A H) as (E0 & E1 & Ea & Eb). rewrite E0 in Hj; rewrite E1 in Hi.
  rewrite (transposed_maddr fixp A H), Ea by auto. apply HA; auto.
Qed.
Lemma transposed_writable : forall fixp (A At : mat O) (P : nat -> nat -> Prop),
  transposed fixp A = Some At -> layout_ok (mlay A) (ext0 A) (ext1 A) ->
  mwritable_on A P -> mwritable_on At (fun j i => P i j).
Proof.
  intros fixp A At P H Hok [Hd Hu].
  destruct (transposed_ext fixp A H) as (E0 & E1 & Ea & Eb). split; [congruence|].
  intros j i j' i' Hj Hi Hj' Hi' HP HP' E. rewrite E0 in *. rewrite E1 in *.
  rewrite !(transposed_maddr fixp A H) in E by auto.
  destruct (Hu i j i' j'); auto.
Qed.

Lemma transposed_twice_addr : forall fixp (A At Att : mat O) i j,
  transposed fixp A = Some At -> transposed fixp At = Some Att ->
  layout_ok (mlay A) (ext0 A) (ext1 A) -> i < ext0 A -> j < ext1 A ->
  ext0 Att = ext0 A /\ ext1 Att = ext1 A /\ macc Att = macc A /\ maddr Att i j = maddr A i j.
Proof.
  intros fixp A At Att i j H1 H2 Hok Hi Hj.
  destruct (transposed_ext fixp A H1) as (E0 & E1 & Ea & Eb).
  destruct (transposed_ext fixp At H2) as (F0 & F1 & Fa & Fb).
  repeat split; try congruence.
  rewrite (transposed_maddr fixp At H2), (transposed_maddr fixp A H1); auto; try congruence.
  eapply transposed_lay; eauto.
Qed.

Lemma conjugate_transposed_holds : forall fixp fix_nc nc (m : mem O) A Ah (P : nat -> nat -> Prop) a,
  (forall v : O, conj (conj v) = v) -> (nc = true -> forall v : O, conj v = v) ->
  conjugate_transposed fixp fix_nc nc A = Some Ah -> layout_ok (mlay A) (ext0 A) (ext1 A) ->
  mat_holds_on m A P a ->
  ext0 Ah = ext1 A /\ ext1 Ah = ext0 A /\
  mat_holds_on m Ah (fun j i => P i j) (fun j i => conj (a i j)).
Proof.
  intros fixp fix_nc nc m A Ah P a Hcc Hnc H Hok HA. unfold conjugate_transposed in H.
  destruct (transposed fixp A) as [At|] eqn:E; [|discriminate]. inversion H; subst; clear H.
  destruct (transposed_ext fixp A E) as (E0 & E1 & _). simpl. repeat split; auto.
  apply conjugated_m_holds with (f := fun j i => a i j); auto. eapply transposed_holds; eauto.
Qed.
End Pf.

Section Conj.
Context {O : ops}.
Lemma conj_acc_read : forall fix_nc nc (c : acc O) v,
  (forall v : O, conj (conj v) = v) -> (nc = true -> forall v : O, conj v = v) ->
  acc_read (conj_acc fix_nc nc c) v = conj (acc_read c v).
Proof.
  intros fix_nc nc c v Hcc Hnc. unfold conj_acc.
  destruct c as [|al c|c]; simpl; auto; destruct fix_nc; destruct nc; simpl; auto; rewrite Hnc; auto.
Qed.
Lemma conjugated_v_twice : forall fix_nc nc (x : vec O),
  (forall v : O, conj (conj v) = v) -> (nc = true -> forall v : O, conj v = v) ->
  let x2 := conjugated_v fix_nc nc (conjugated_v fix_nc nc x) in
  vext x2 = vext x /\ (forall i, vaddr x2 i = vaddr x i) /\
  (forall m f, vec_holds m x f <-> vec_holds m x2 f) /\
  (vwritable x -> vwritable x2).
Proof.
  intros fix_nc nc x Hcc Hnc x2. unfold x2. repeat split; auto; simpl.
  - intros H i Hi. destruct (H i Hi) as (v & Hv & Hf). exists v; split; auto. simpl.
    rewrite !conj_acc_read, Hcc; auto.
  - intros H i Hi. destruct (H i Hi) as (v & Hv & Hf). exists v; split; auto. simpl in Hf.
    rewrite !conj_acc_read, Hcc in Hf; auto.
  - destruct H as [Hd Hu]. rewrite Hd. simpl. destruct (fix_nc && nc) eqn:E; simpl; auto. rewrite E; auto.
  - destruct H as [Hd Hu]. exact Hu.
Qed.
Lemma conjugated_m_twice : forall fix_nc nc (A : mat O),
  (forall v : O, conj (conj v) = v) -> (nc = true -> forall v : O, conj v = v) ->
  let A2 := conjugated_m fix_nc nc (conjugated_m fix_nc nc A) in
  ext0 A2 = ext0 A /\ ext1 A2 = ext1 A /\ (forall i j, maddr A2 i j = maddr A i j) /\
  (forall m f, mat_holds m A f <-> mat_holds m A2 f) /\
  (mwritable A -> mwritable A2).
Proof.
  intros fix_nc nc x Hcc Hnc x2. unfold x2. split; [|split; [|split; [|split]]]; auto; simpl.
  { intros m f; split.
  - intros H i j Hi Hj HP. destruct (H i j Hi Hj HP) as (v & Hv & Hf). exists v; split; auto. simpl.
    rewrite !conj_acc_read, Hcc; auto.
  - intros H i j Hi Hj HP. destruct (H i j Hi Hj HP) as (v & Hv & Hf). exists v; split; auto. simpl in Hf.
    rewrite !conj_acc_read, Hcc in Hf; auto. }
  intros [Hd Hu]. split; [|exact Hu]. simpl. rewrite Hd. simpl.
  destruct (fix_nc && nc) eqn:E; simpl; auto. rewrite E; auto.
Qed.

(** conjugate_transposed twice *)
Lemma conjugate_transposed_twice : forall fixp fix_nc nc (m : mem O) A Ah Ahh a,
  (forall v : O, conj (conj v) = v) -> (nc = true -> forall v : O, conj v = v) ->
  conjugate_transposed fixp fix_nc nc A = Some Ah -> conjugate_transposed fixp fix_nc nc Ah = Some Ahh ->
  layout_ok (mlay A) (ext0 A) (ext1 A) -> mat_holds m A a ->
  ext0 Ahh = ext0 A /\ ext1 Ahh = ext1 A /\ mat_holds m Ahh a.
Proof.
  intros fixp fix_nc nc m A Ah Ahh a Hcc Hnc H1 H2 Hok HA.
  pose proof (conjugate_transposed_holds fixp fix_nc Hcc Hnc H1 Hok HA) as (E0 & E1 & K1).
  assert (layout_ok (mlay Ah) (ext0 Ah) (ext1 Ah)) as Hok1.
  { unfold conjugate_transposed in H1. destruct (transposed fixp A) as [At|] eqn:E; [|discriminate].
    inversion H1; subst; simpl. eapply transposed_lay; eauto. }
  assert (mat_holds m Ah (fun j i => conj (a i j))) as K1' by (intros i j Hi Hj _; apply K1; auto; exact I).
  pose proof (conjugate_transposed_holds fixp fix_nc Hcc Hnc H2 Hok1 K1') as (F0 & F1 & K2).
  repeat split; try congruence. intros i j Hi Hj _. destruct (K2 i j Hi Hj I) as (v & Hv & Hf).
  exists v; split; auto. rewrite Hf. apply Hcc.
Qed.
End Conj.

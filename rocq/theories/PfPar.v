(** Tasks with separate footprints: every schedule has the effect of running each task alone. *)
From Coq Require Import List Arith Lia Bool Relations.
From Verif Require Import Mem Scalar View Spec Wp Par.
Import ListNotations.
Set Implicit Arguments.

(** * Weakest precondition with footprint: loads only in R, stores only in W *)
Section Within.
Variable T : Type.

Fixpoint within {A} (R W : cellset) (p : prog T A) (m : mem T) (Q : A -> mem T -> Prop) : Prop :=
  match p with
  | Ret x => Q x m
  | Get a k => R a /\ exists v, m a = Some v /\ within R W (k v) m Q
  | Put a v k => W a /\ m a <> None /\ within R W k (upd m a v) Q
  | Fail _ => False
  end.

Lemma within_bind : forall A B R W (p : prog T A) (f : A -> prog T B) m Q,
  within R W p m (fun x m' => within R W (f x) m' Q) -> within R W (bind p f) m Q.
Proof.
  intros A B R W p f. induction p as [x | a k IH | a v k IH | e]; simpl; intros m Q H; auto.
  - destruct H as (Ha & v & Hv & H). split; auto. exists v; auto.
  - destruct H as (Ha & Hv & H). auto.
Qed.

Lemma within_conseq : forall A R W (p : prog T A) m (Q Q' : A -> mem T -> Prop),
  within R W p m Q -> (forall x m', Q x m' -> Q' x m') -> within R W p m Q'.
Proof.
  intros A R W p. induction p as [x | a k IH | a v k IH | e]; simpl; intros m Q Q' H HI; auto.
  - destruct H as (Ha & v & Hv & H). split; auto. exists v; split; auto. eapply IH; eauto.
  - destruct H as (Ha & Hv & H). repeat split; auto. eapply IH; eauto.
Qed.

Lemma within_for_range : forall R W (I : nat -> mem T -> Prop) lo hi body m (Q : unit -> mem T -> Prop),
  lo <= hi -> I lo m ->
  (forall i m', lo <= i < hi -> I i m' -> within R W (body i) m' (fun _ m'' => I (S i) m'')) ->
  (forall m', I hi m' -> Q tt m') ->
  within R W (for_range lo hi body) m Q.
Proof.
  intros R W I lo hi body m Q Hle. unfold for_range.
  remember (hi - lo) as n eqn:En. revert lo m Hle En. induction n as [|n IH]; intros lo m Hle En H0 Hs HQ; simpl.
  - apply HQ. replace hi with lo by lia; auto.
  - apply within_bind. eapply within_conseq; [apply Hs; auto; lia|].
    intros [] m' H. apply IH; auto; try lia. intros; apply Hs; auto; lia.
Qed.

Lemma within_fold_range : forall A R W (I : nat -> A -> mem T -> Prop) lo hi body acc m (Q : A -> mem T -> Prop),
  lo <= hi -> I lo acc m ->
  (forall i a m', lo <= i < hi -> I i a m' -> within R W (body i a) m' (fun a' m'' => I (S i) a' m'')) ->
  (forall a m', I hi a m' -> Q a m') ->
  within R W (fold_range lo hi body acc) m Q.
Proof.
  intros A R W I lo hi body acc m Q Hle. unfold fold_range.
  remember (hi - lo) as n eqn:En. revert lo acc m Hle En. induction n as [|n IH]; intros lo acc m Hle En H0 Hs HQ; simpl.
  - apply HQ. replace hi with lo by lia; auto.
  - apply within_bind. eapply within_conseq; [apply Hs; auto; lia|].
    intros a m' H. apply IH; auto; try lia. intros; apply Hs; auto; lia.
Qed.

Lemma within_changes : forall A R W (p : prog T A) m Q,
  within R W p m Q -> within R W p m (fun x m' => Q x m' /\ changes_only m m' W).
Proof.
  intros A R W p. induction p as [x | a k IH | a v k IH | e]; simpl; intros m Q H; auto.
  - split; auto. apply changes_only_refl.
  - destruct H as (Ha & v & Hv & H). split; auto. exists v; split; auto.
  - destruct H as (Ha & Hv & H). repeat split; auto. eapply within_conseq; [apply IH; exact H|].
    intros x m' (HQ & Hc). split; auto. intros b Hb. rewrite Hc by auto. apply upd_other. congruence.
Qed.
End Within.

(** * Schedules *)
Section Sched.
Variable T : Type.
Notation task := (prog T unit).

(** Memories that agree on a set of cells. *)
Definition agree (S : cellset) (m m' : mem T) : Prop := forall a, S a -> m' a = m a.

(** Only the cells of R and W matter. *)
Lemma within_agree : forall A (R W : cellset) (p : prog T A) m m' Q,
  (forall a, R a -> m' a = m a) -> (forall a, W a -> m' a = m a) ->
  within R W p m Q ->
  within R W p m' (fun x f' => exists f, Q x f /\ agree R f f' /\ agree W f f').
Proof.
  intros A R W p. induction p as [x | a k IH | a v k IH | e]; simpl; intros m m' Q HR HW H; auto.
  - exists m. repeat split; auto.
  - destruct H as (Ha & v & Hv & H). split; auto. exists v. split; [rewrite HR; auto|]. apply IH with m; auto.
  - destruct H as (Ha & Hv & H). split; auto. split; [rewrite HW; auto|].
    apply IH with (upd m a v); auto.
    + intros b Hb. unfold upd. destruct (Nat.eqb b a); auto.
    + intros b Hb. unfold upd. destruct (Nat.eqb b a); auto.
Qed.

Variables (R W : nat -> cellset).
(** Cells written by one task are neither read nor written by another. *)
Definition separate (n : nat) : Prop := forall i j a, i < n -> j < n -> i <> j -> W i a -> ~ R j a /\ ~ W j a.

Variable m0 : mem T.
Variable Q : nat -> mem T -> Prop.

(** State of the region: task i still has to do p_i, and what it will leave in W i is as if it ran alone. *)
Definition good (n : nat) (ts : list task) (m : mem T) : Prop :=
  length ts = n /\
  (forall i p, nth_error ts i = Some p ->
     within (R i) (W i) p m (fun _ f => exists f', Q i f' /\ agree (W i) f' f)) /\
  (forall a, (forall i, i < n -> ~ W i a) -> m a = m0 a).

Lemma nth_split_other : forall A (l1 l2 : list A) p p' i x,
  nth_error (l1 ++ p' :: l2) i = Some x -> i <> length l1 -> nth_error (l1 ++ p :: l2) i = Some x.
Proof.
  intros A l1 l2 p p' i x H Hne. destruct (Nat.lt_ge_cases i (length l1)).
  - rewrite nth_error_app1 in * by auto; auto.
  - rewrite nth_error_app2 in * by auto. destruct (i - length l1) eqn:E; [lia|]. auto.
Qed.
Lemma nth_split_mid : forall A (l1 l2 : list A) p, nth_error (l1 ++ p :: l2) (length l1) = Some p.
Proof. intros. rewrite nth_error_app2 by auto. rewrite Nat.sub_diag. auto. Qed.

Lemma good_step : forall n ts m ts' m', separate n -> good n ts m -> region_step (ts, m) (ts', m') -> good n ts' m'.
Proof.
  intros n ts m ts' m' Hsep Hg Hs. inversion Hs as [l1 p l2 m1 p' m1' Hst]; subst. destruct Hg as (Hlen & Ht & Hf).
  assert (Hi : length l1 < n) by (rewrite app_length in *; simpl in *; lia).
  pose proof (Ht _ _ (nth_split_mid l1 l2 p)) as Hp.
  assert (Hmm : forall a, m' a <> m a -> W (length l1) a).
  { inversion Hst; subst; intros b Hb; [congruence|]. simpl in Hp. destruct Hp as (Hp & _).
    unfold upd in Hb. destruct (Nat.eqb_spec b a); subst; auto; congruence. }
  split; [|split].
  - rewrite app_length in *. simpl in *. lia.
  - intros i q Hq. destruct (Nat.eq_dec i (length l1)) as [->|Hne].
    + rewrite nth_split_mid in Hq. injection Hq as <-.
      inversion Hst; subst; simpl in Hp.
      * destruct Hp as (_ & w & Hw & Hp). replace v with w by congruence. exact Hp.
      * destruct Hp as (_ & _ & Hp). exact Hp.
    + assert (Hin : i < n).
      { apply nth_split_other with (p := p) in Hq; auto. rewrite <- Hlen. apply nth_error_Some. congruence. }
      apply nth_split_other with (p := p) in Hq; auto. specialize (Ht _ _ Hq).
      eapply within_conseq; [eapply within_agree; [| |exact Ht]|].
      * intros a Ha. destruct (m' a) as [u|] eqn:E1; destruct (m a) as [w|] eqn:E2; auto;
        try (exfalso; destruct (Hsep (length l1) i a) as (H1 & H2); auto; apply Hmm; congruence).
        f_equal. assert (D : m' a = m a \/ m' a <> m a).
        { inversion Hst; subst; [left; auto|]. simpl in Hp. unfold upd.
          destruct (Nat.eqb_spec a a0); [|left; auto]. subst.
          exfalso. destruct (Hsep (length l1) i a0) as (H1 & H2); auto. apply Hp. }
        destruct D as [D|D]; [congruence|].
        exfalso; destruct (Hsep (length l1) i a) as (H1 & H2); auto.
      * intros a Ha. inversion Hst; subst; auto. simpl in Hp. unfold upd.
        destruct (Nat.eqb_spec a a0); auto. subst.
        exfalso. destruct (Hsep (length l1) i a0) as (H1 & H2); auto. apply Hp.
      * intros [] f (f' & (f'' & HQ & Hag) & HR & HW). exists f''. split; auto.
        intros a Ha. rewrite HW by auto. apply Hag; auto.
  - intros a Ha. rewrite <- Hf by auto.
    inversion Hst; subst; auto. unfold upd. destruct (Nat.eqb_spec a a0); auto. subst.
    simpl in Hp. exfalso. apply (Ha (length l1)); auto. apply Hp.
Qed.

Lemma good_reach : forall n c c', separate n -> reachable c c' -> good n (fst c) (snd c) -> good n (fst c') (snd c').
Proof.
  intros n c c' Hsep Hr. induction Hr as [|[ts m] [ts1 m1] c'' Hs _ IH]; auto.
  intros Hg. apply IH. simpl in *. eapply good_step; eauto.
Qed.

Lemma region_ok_separate : forall ts m (P : mem T -> Prop), separate (length ts) ->
  (forall a, m0 a = m a) ->
  (forall i p, nth_error ts i = Some p -> within (R i) (W i) p m (fun _ f => Q i f)) ->
  (forall m', (forall i, i < length ts -> exists f, Q i f /\ agree (W i) f m') ->
              changes_only m m' (fun a => exists i, i < length ts /\ W i a) -> P m') ->
  region_ok ts m P.
Proof.
  intros ts m P Hsep Hm0 Ht HP ts' m' Hr.
  assert (G : good (length ts) ts m).
  { split; [auto|split; [|auto]]. intros i p Hp. eapply within_conseq; [apply Ht; auto|].
    intros [] f Hf. exists f. split; auto. intros a Ha; auto. }
  apply (good_reach Hsep Hr) in G. simpl in G. destruct G as (Hl & Hw & Hf).
  split; [|split].
  - intros (l1 & p & l2 & q & l3 & a & -> & Hrace).
    assert (Hlen : length l1 + S (length l2) < length ts).
    { rewrite <- Hl. rewrite !app_length; simpl. rewrite app_length; simpl. lia. }
    pose proof (Hw _ _ (nth_split_mid l1 (l2 ++ q :: l3) p)) as Hp.
    assert (Hq : nth_error (l1 ++ p :: l2 ++ q :: l3) (length l1 + S (length l2)) = Some q).
    { rewrite nth_error_app2 by lia. replace (length l1 + S (length l2) - length l1) with (S (length l2)) by lia.
      simpl. apply nth_split_mid. }
    apply Hw in Hq.
    destruct Hrace as [(Hp' & Hq')|(Hp' & Hq')].
    + destruct p as [|b k|b v k|]; simpl in Hp'; try tauto. subst. simpl in Hp. destruct Hp as (Hp & _).
      destruct (Hsep (length l1) (length l1 + S (length l2)) a) as (H1 & H2); auto; try lia.
      destruct q as [|b' k'|b' v' k'|]; simpl in Hq', Hq; destruct Hq' as [E|E]; try tauto; subst; tauto.
    + destruct q as [|b k|b v k|]; simpl in Hq'; try tauto. subst. simpl in Hq. destruct Hq as (Hq & _).
      destruct (Hsep (length l1 + S (length l2)) (length l1) a) as (H1 & H2); auto; try lia.
      destruct p as [|b' k'|b' v' k'|]; simpl in Hp', Hp; try tauto. subst. tauto.
  - intros p Hin (Hnf & Hst). apply In_nth_error in Hin. destruct Hin as (i & Hi). specialize (Hw _ _ Hi).
    destruct p as [x|a k|a v k|e]; simpl in *; auto.
    + destruct Hw as (_ & v & Hv & _). apply (Hst (k v) m'). constructor; auto.
    + destruct Hw as (_ & Ha & _). destruct (m' a) as [w|] eqn:E; [|tauto].
      apply (Hst k (upd m' a v)). econstructor; eauto.
  - intros Hfin. apply HP.
    + intros i Hi. rewrite <- Hl in Hi. apply nth_error_Some in Hi. destruct (nth_error ts' i) as [p|] eqn:E; [|tauto].
      pose proof (Hw _ _ E) as Hp. rewrite Forall_forall in Hfin. apply nth_error_In in E. apply Hfin in E.
      destruct p as [[]| | |]; simpl in *; try tauto.
    + intros a Ha. rewrite <- Hm0. apply Hf. intros i Hi HW. apply Ha. exists i; auto.
Qed.
End Sched.

(** Every schedule comes to an end: tasks are finite trees. *)
Section Ends.
Variable T : Type.
Notation task := (prog T unit).
Definition rev_step (c' c : list task * mem T) : Prop := region_step c c'.

Inductive list_step : list task -> list task -> Prop :=
| ls_get : forall l1 a k v l2, list_step (l1 ++ k v :: l2) (l1 ++ Get a k :: l2)
| ls_put : forall l1 a v k l2, list_step (l1 ++ k :: l2) (l1 ++ Put a v k :: l2).

Lemma list_step_cons : forall l' p l, list_step l' (p :: l) ->
  (exists p', l' = p' :: l /\ ((exists a k v, p = Get a k /\ p' = k v) \/ (exists a v, p = Put a v p'))) \/
  (exists l'', l' = p :: l'' /\ list_step l'' l).
Proof.
  intros l' p l H. inversion H as [l1 a k v l2 E1 E2|l1 a v k l2 E1 E2]; destruct l1 as [|q l1]; simpl in *; injection E2 as E3 E4; subst.
  - left. exists (k v). split; auto. left. exists a, k, v. auto.
  - right. eexists. split; eauto. constructor.
  - left. exists k. split; auto. right. exists a, v. auto.
  - right. eexists. split; eauto. constructor.
Qed.

Lemma list_acc : forall ts : list task, Acc list_step ts.
Proof.
  induction ts as [|p ts IH].
  - constructor. intros l H. inversion H; destruct l1; discriminate.
  - induction IH as [ts _ IH2] in p |- *.
    induction p as [x | a k IH | a v k IH | e]; constructor; intros l' H; apply list_step_cons in H;
      destruct H as [(p' & -> & [(b & k' & w & E & ->)|(b & w & E)])|(l'' & -> & H)]; try discriminate;
      try (injection E; intros; subst; apply IH); try (apply IH2; assumption).
Qed.

Lemma region_terminates : forall c : list task * mem T, Acc rev_step c.
Proof.
  intros [ts m]. pose proof (list_acc ts) as H. revert m. induction H as [ts _ IH]. intros m.
  constructor. intros [ts' m'] Hs. unfold rev_step in Hs. inversion Hs as [l1 p l2 m1 p' m1' Hst]; subst.
  apply IH. inversion Hst; subst; constructor.
Qed.
End Ends.

(** No infinite schedule. *)
Lemma no_infinite_schedule : forall T (s : nat -> list (prog T unit) * mem T),
  ~ forall n, region_step (s n) (s (S n)).
Proof.
  intros T s H. assert (A : forall c, Acc (@rev_step T) c -> forall n, s n = c -> False).
  { intros c Hc. induction Hc as [c _ IH]. intros n <-. eapply IH; [|reflexivity]. exact (H n). }
  exact (A (s 0) (region_terminates (s 0)) 0 eq_refl).
Qed.

(** * Footprints *)
Section Touches.
Variable T : Type.

Lemma touches_within : forall A R W (p : prog T A) m Q,
  touches R W p -> succeeds p m Q -> within R W p m Q.
Proof.
  intros A R W p. induction p as [x | a k IH | a v k IH | e]; intros m Q Ht (x' & m' & Hr & HQ); simpl in *.
  - injection Hr as <- <-. auto.
  - destruct Ht as (Ha & Ht). destruct (m a) as [v|] eqn:E; [|discriminate].
    split; auto. exists v. split; auto. apply IH; auto. exists x', m'. auto.
  - destruct Ht as (Ha & Ht). destruct (m a) as [w|] eqn:E; [|discriminate].
    split; auto. split; [congruence|]. apply IH; auto. exists x', m'. auto.
  - discriminate.
Qed.

Lemma touches_bind : forall A B R W (p : prog T A) (f : A -> prog T B),
  touches R W p -> (forall x, touches R W (f x)) -> touches R W (bind p f).
Proof.
  intros A B R W p f. induction p as [x | a k IH | a v k IH | e]; simpl; intros Hp Hf; auto.
  - destruct Hp; auto.
  - destruct Hp; auto.
Qed.
Lemma touches_mono : forall A (R W R' W' : nat -> Prop) (p : prog T A),
  (forall a, R a -> R' a) -> (forall a, W a -> W' a) -> touches R W p -> touches R' W' p.
Proof.
  intros A R W R' W' p HR HW. induction p as [x | a k IH | a v k IH | e]; simpl; intros Hp; auto.
  - destruct Hp; auto.
  - destruct Hp; auto.
Qed.
Lemma touches_for : forall R W lo n (body : nat -> prog T unit),
  (forall i, lo <= i < lo + n -> touches R W (body i)) -> touches R W (for_ lo n body).
Proof.
  intros R W lo n; revert lo; induction n as [|n IH]; intros lo body H; simpl; auto.
  apply touches_bind; [apply H; lia|]. intros _. apply IH. intros; apply H; lia.
Qed.
Lemma touches_for_range : forall R W lo hi (body : nat -> prog T unit),
  (forall i, lo <= i < hi -> touches R W (body i)) -> touches R W (for_range lo hi body).
Proof. intros; unfold for_range. apply touches_for. intros; apply H; lia. Qed.
Lemma touches_fold : forall A R W lo n (body : nat -> A -> prog T A) acc,
  (forall i a, lo <= i < lo + n -> touches R W (body i a)) -> touches R W (fold_ lo n body acc).
Proof.
  intros A R W lo n; revert lo; induction n as [|n IH]; intros lo body acc H; simpl; auto.
  apply touches_bind; [apply H; lia|]. intros a. apply IH. intros; apply H; lia.
Qed.
Lemma touches_fold_range : forall A R W lo hi (body : nat -> A -> prog T A) acc,
  (forall i a, lo <= i < hi -> touches R W (body i a)) -> touches R W (fold_range lo hi body acc).
Proof. intros; unfold fold_range. apply touches_fold. intros; apply H; lia. Qed.
End Touches.

Section TouchViews.
Context {O : ops}.
Lemma touches_vget : forall (R W : nat -> Prop) (x : vec O) i, (i < vext x -> R (vaddr x i)) -> touches R W (vget x i).
Proof. intros R W x i H. unfold vget. destruct (Nat.ltb_spec i (vext x)); simpl; auto. Qed.
Lemma touches_vset : forall (R W : nat -> Prop) (x : vec O) i v, (i < vext x -> W (vaddr x i)) -> touches R W (vset x i v).
Proof. intros R W x i v H. unfold vset. destruct (vacc x); simpl; auto. destruct (Nat.ltb_spec i (vext x)); simpl; auto. Qed.
Lemma touches_mget : forall (R W : nat -> Prop) (A : mat O) i j,
  (i < ext0 A -> j < ext1 A -> R (maddr A i j)) -> touches R W (mget A i j).
Proof.
  intros R W A i j H. unfold mget. destruct (Nat.ltb_spec i (ext0 A)); destruct (Nat.ltb_spec j (ext1 A)); simpl; auto.
Qed.
Lemma touches_mset : forall (R W : nat -> Prop) (A : mat O) i j v,
  (i < ext0 A -> j < ext1 A -> W (maddr A i j)) -> touches R W (mset A i j v).
Proof.
  intros R W A i j v H. unfold mset. destruct (macc A); simpl; auto.
  destruct (Nat.ltb_spec i (ext0 A)); destruct (Nat.ltb_spec j (ext1 A)); simpl; auto.
Qed.

(** * Regions in which every output cell has one owner *)
Lemma region_owned : forall (X : Type) (dom : X -> Prop) (addr own : X -> nat) (val : X -> O)
    (R : nat -> cellset) n body m (P : mem O -> Prop),
  (forall x y, dom x -> dom y -> addr x = addr y -> own x = own y) ->
  (forall x, dom x -> own x < n) ->
  (forall t x, t < n -> dom x -> own x <> t -> ~ R t (addr x)) ->
  (forall t, t < n -> touches (R t) (fun a => exists x, dom x /\ own x = t /\ a = addr x) (body t)) ->
  (forall t, t < n -> succeeds (body t) m (fun _ f => forall x, dom x -> own x = t -> f (addr x) = Some (val x))) ->
  (forall m', (forall x, dom x -> m' (addr x) = Some (val x)) ->
     changes_only m m' (fun a => exists x, dom x /\ a = addr x) -> P m') ->
  region_ok (tasks n body) m P.
Proof.
  intros X dom addr own val R n body m P Hinj Hown HR Ht Hs HP.
  assert (Hlen : length (tasks n body) = n) by (unfold tasks; rewrite map_length, seq_length; auto).
  eapply region_ok_separate with (R := R) (W := fun t a => exists x, dom x /\ own x = t /\ a = addr x)
    (Q := fun t f => forall x, dom x -> own x = t -> f (addr x) = Some (val x)) (m0 := m).
  - rewrite Hlen. intros i j a Hi Hj Hne (x & Hx & Ho & ->). split.
    + apply HR; auto. congruence.
    + intros (y & Hy & Hoy & E). apply Hne. rewrite <- Ho, <- Hoy. apply Hinj; auto.
  - auto.
  - intros i p Hp. unfold tasks in Hp.
    assert (Hi : i < n). { rewrite <- Hlen. apply nth_error_Some. unfold tasks. congruence. }
    rewrite nth_error_map in Hp.
    assert (E : nth_error (seq 0 n) i = Some i).
    { rewrite nth_error_nth' with (d := 0) by (rewrite seq_length; auto). rewrite seq_nth; auto. }
    rewrite E in Hp. simpl in Hp. injection Hp as <-.
    apply touches_within; auto.
  - rewrite Hlen. intros m' Hm' Hc. apply HP.
    + intros x Hx. destruct (Hm' (own x)) as (f & Hf & Hag); auto. rewrite Hag; [auto|]. exists x; auto.
    + eapply changes_only_mono; [|exact Hc]. intros a (i & Hi & x & Hx & Ho & ->). exists x; auto.
Qed.

Lemma region_mat : forall (C : mat O) (P : nat -> nat -> Prop) (own : nat -> nat -> nat) (g : nat -> nat -> O)
    (R : nat -> cellset) n body m (Q : mem O -> Prop),
  mwritable_on C P ->
  (forall i j, i < ext0 C -> j < ext1 C -> P i j -> own i j < n) ->
  (forall t i j, t < n -> i < ext0 C -> j < ext1 C -> P i j -> own i j <> t -> ~ R t (maddr C i j)) ->
  (forall t, t < n -> touches (R t) (mcells_on C (fun i j => P i j /\ own i j = t)) (body t)) ->
  (forall t, t < n -> succeeds (body t) m (fun _ f => mat_holds_on f C (fun i j => P i j /\ own i j = t) g)) ->
  (forall m', mst m m' C P g -> Q m') ->
  region_ok (tasks n body) m Q.
Proof.
  intros C P own g R n body m Q [Hd Hu] Hown HR Ht Hs HQ.
  apply region_owned with (X := (nat * nat)%type)
    (dom := fun x => fst x < ext0 C /\ snd x < ext1 C /\ P (fst x) (snd x))
    (addr := fun x => maddr C (fst x) (snd x)) (own := fun x => own (fst x) (snd x))
    (val := fun x => g (fst x) (snd x)) (R := R).
  - intros [i j] [i' j'] (Hi & Hj & HP) (Hi' & Hj' & HP') E. simpl in *.
    destruct (Hu i j i' j') as [-> ->]; auto.
  - intros [i j] (Hi & Hj & HP); simpl in *; auto.
  - intros t [i j] H (Hi & Hj & HP) Hne; simpl in *; auto.
  - intros t H. eapply touches_mono; [| |apply Ht; auto]; auto.
    intros a (i & j & Hi & Hj & (HP & Ho) & ->). exists (i, j). simpl. auto.
  - intros t H. eapply wp_conseq; [apply Hs; auto|].
    intros [] f Hf [i j] (Hi & Hj & HP) Ho; simpl in *. destruct (Hf i j Hi Hj) as (v & Hv & Hg); auto.
    rewrite Hd in Hg. simpl in Hg. congruence.
  - intros m' Hm' Hc. apply HQ. split.
    + intros i j Hi Hj HP. exists (g i j). rewrite Hd; simpl. split; auto.
      apply (Hm' (i, j)); simpl; auto.
    + eapply changes_only_mono; [|exact Hc]. intros a ([i j] & (Hi & Hj & HP) & ->). exists i, j. auto.
Qed.

Lemma region_vec : forall (z : vec O) (g : nat -> O) (R : nat -> cellset) body m (Q : mem O -> Prop),
  vwritable z ->
  (forall t i, t < vext z -> i < vext z -> i <> t -> ~ R t (vaddr z i)) ->
  (forall t, t < vext z -> touches (R t) (fun a => a = vaddr z t) (body t)) ->
  (forall t, t < vext z -> succeeds (body t) m (fun _ f => f (vaddr z t) = Some (g t))) ->
  (forall m', vst m m' z g -> Q m') ->
  region_ok (tasks (vext z) body) m Q.
Proof.
  intros z g R body m Q [Hd Hu] HR Ht Hs HQ.
  apply region_owned with (X := nat) (dom := fun i => i < vext z) (addr := fun i => vaddr z i) (own := fun i => i)
    (val := g) (R := R); auto.
  - intros t H. eapply touches_mono; [| |apply Ht; auto]; auto. intros a ->. exists t; auto.
  - intros t H. eapply wp_conseq; [apply Hs; auto|]. intros [] f Hf x _ ->. auto.
  - intros m' Hm' Hc. apply HQ. split.
    + intros i Hi. exists (g i). rewrite Hd; simpl. auto.
    + exact Hc.
Qed.
End TouchViews.

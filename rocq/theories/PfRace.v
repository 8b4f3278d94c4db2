(** Proofs about concurrent threads with non-interfering footprints (C85). *)
From Coq Require Import List Arith Lia.
From Verif Require Import Mem Spec SpecRace Wp.
Import ListNotations.
Set Implicit Arguments.

Lemma replace_same : forall X (l : list X) i x, i < length l -> nth_error (replace i x l) i = Some x.
Proof.
  unfold replace. intros X l i x H. rewrite nth_error_app2; rewrite firstn_length, Nat.min_l by lia; auto.
  rewrite Nat.sub_diag. reflexivity.
Qed.
Lemma replace_other : forall X (l : list X) i j x, i < length l -> i <> j -> nth_error (replace i x l) j = nth_error l j.
Proof.
  unfold replace. intros X l. induction l as [|y l IH]; intros i j x H N; simpl in *; [lia|].
  destruct i as [|i], j as [|j]; simpl; try lia; auto.
  simpl in IH. apply IH; lia.
Qed.
Lemma replace_length : forall X (l : list X) i x, i < length l -> length (replace i x l) = length l.
Proof. unfold replace. intros. rewrite app_length, firstn_length. cbn [length]. rewrite skipn_length. lia. Qed.
Lemma nth_lt : forall X (l : list X) i x, nth_error l i = Some x -> i < length l.
Proof. intros. apply nth_error_Some. congruence. Qed.

(** A run depends only on the cells that are touched, and changes only those stored to. *)
Lemma run_agree : forall T A (R W : cellset) (p : prog T A) m m' x mf, touches p R W ->
  (forall a, R a \/ W a -> m a = m' a) -> run p m = Ok x mf ->
  exists mf', run p m' = Ok x mf' /\ (forall a, R a \/ W a -> mf a = mf' a) /\ (forall a, ~ W a -> mf' a = m' a).
Proof.
  intros T A R W. induction p as [x|a k IH|a v k IH|e]; simpl; intros m m' y mf Ht Hm Hr.
  - inversion Hr; subst. exists m'. repeat split; auto.
  - destruct Ht as [Ra Hk]. rewrite <- (Hm a) by auto. destruct (m a) as [w|]; [|discriminate]. eapply IH; eauto.
  - destruct Ht as [Wa Hk]. rewrite <- (Hm a) by auto. destruct (m a) as [w|]; [|discriminate].
    destruct (IH (upd m a v) (upd m' a v) y mf Hk) as (mf' & H1 & H2 & H3); auto.
    { intros b Hb. unfold upd. destruct (Nat.eqb b a); auto. }
    exists mf'. split; auto. split; auto. intros b Hb. rewrite H3 by auto. unfold upd.
    destruct (Nat.eqb_spec b a); auto. subst. contradiction.
  - discriminate.
Qed.

Section Pool.
Context {T A : Type}.
Variables (ts : list (thread T A)) (m0 : mem T) (xs : list A) (ms : list (mem T)).
Hypothesis Hts : non_interfering ts.
Hypothesis Htouch : forall i t, nth_error ts i = Some t -> touches (code t) (loads t) (stores t).

(** Every thread, continued alone, ends as it would have from the start. *)
Definition inv (ps : list (prog T A)) (m : mem T) : Prop :=
  length ps = length ts /\
  (forall i t p, nth_error ts i = Some t -> nth_error ps i = Some p ->
     touches p (loads t) (stores t) /\
     exists x mf mf0, nth_error xs i = Some x /\ nth_error ms i = Some mf0 /\
       run p m = Ok x mf /\ (forall a, stores t a -> mf a = mf0 a)) /\
  (forall a, (forall i t, nth_error ts i = Some t -> ~ stores t a) -> m a = m0 a).

Lemma inv_ts : forall ps m i p, inv ps m -> nth_error ps i = Some p -> exists t, nth_error ts i = Some t.
Proof.
  intros ps m i p (L & _) H. apply nth_lt in H. rewrite L in H. apply nth_error_Some in H.
  destruct (nth_error ts i) as [t|]; [eauto|congruence].
Qed.
Lemma inv_step : forall c c', inv (fst c) (snd c) -> step c c' -> inv (fst c') (snd c').
Proof.
  intros c c' Hi Hs. destruct Hs as [i a k v ps m Hp Hm|i a v w k ps m Hp Hm]; simpl in *.
  - destruct (@inv_ts _ _ _ _ Hi Hp) as [t Ht]. destruct Hi as (L & Hi & Ho). assert (Hl := nth_lt _ _ Hp).
    split; [rewrite replace_length; auto|]. split; auto. intros j u q Hu Hq.
    destruct (Nat.eq_dec i j) as [<-|N].
    + rewrite replace_same in Hq by auto. inversion Hq; subst. destruct (Hi i u (Get a k) Hu Hp) as ((Ra & Hk) & x & mf & mf0 & H1 & H2 & H3 & H4).
      split; auto. exists x, mf, mf0. simpl in H3. rewrite Hm in H3. auto.
    + rewrite replace_other in Hq by auto. eauto.
  - destruct (@inv_ts _ _ _ _ Hi Hp) as [t Ht]. destruct Hi as (L & Hi & Ho). assert (Hl := nth_lt _ _ Hp).
    assert (Wa : stores t a) by (destruct (Hi i t _ Ht Hp) as ((Wa & _) & _); auto).
    split; [rewrite replace_length; auto|]. split.
    + intros j u q Hu Hq. destruct (Nat.eq_dec i j) as [<-|N].
      * rewrite replace_same in Hq by auto. inversion Hq; subst. destruct (Hi i u _ Hu Hp) as ((_ & Hk) & x & mf & mf0 & H1 & H2 & H3 & H4).
        split; auto. exists x, mf, mf0. simpl in H3. rewrite Hm in H3. auto.
      * rewrite replace_other in Hq by auto. destruct (Hi j u q Hu Hq) as (Hk & x & mf & mf0 & H1 & H2 & H3 & H4).
        split; auto. destruct (Hts N Ht Hu) as [D1 D2].
        destruct (@run_agree T A (loads u) (stores u) q m (upd m a v) x mf Hk) as (mf' & R1 & R2 & R3); auto.
        { intros b [Hb|Hb]; unfold upd; destruct (Nat.eqb_spec b a); auto; subst; exfalso; [eapply D1|eapply D2]; eauto. }
        exists x, mf', mf0. repeat split; auto. intros b Hb. rewrite <- R2; auto.
    + intros b Hb. unfold upd. destruct (Nat.eqb_spec b a) as [->|]; [exfalso; eapply Hb; eauto|]. auto.
Qed.
Lemma inv_steps : forall c c', steps c c' -> inv (fst c) (snd c) -> inv (fst c') (snd c').
Proof. induction 1; auto. intros. apply IHsteps. eapply inv_step; eauto. Qed.
Lemma inv_no_race : forall ps m, inv ps m -> ~ data_race ps.
Proof.
  intros ps m Hi (i & j & p & q & a & b & N & Hp & Hq & A1 & A2).
  destruct (@inv_ts _ _ _ _ Hi Hp) as [t Ht], (@inv_ts _ _ _ _ Hi Hq) as [u Hu]. destruct Hi as (L & Hi & Ho).
  destruct (Hi i t p Ht Hp) as (T1 & _), (Hi j u q Hu Hq) as (T2 & _). destruct (Hts N Ht Hu) as [D1 D2].
  destruct p; simpl in A1; try contradiction; destruct A1; try discriminate.
  destruct q; simpl in A2; try contradiction; destruct A2; subst; simpl in T1, T2; [eapply D1|eapply D2]; intuition eauto.
Qed.
Lemma inv_no_fault : forall ps m, inv ps m -> ~ faulty ps m.
Proof.
  intros ps m Hi [(i & a & k & Hp & E)|[(i & a & v & k & Hp & E)|(i & e & Hp)]];
    destruct (@inv_ts _ _ _ _ Hi Hp) as [t Ht]; destruct Hi as (L & Hi & Ho);
    destruct (Hi i t _ Ht Hp) as (_ & x & mf & mf0 & _ & _ & H3 & _); simpl in H3; try rewrite E in H3; discriminate.
Qed.
End Pool.

(** Threads are finite. *)
Inductive sub {T A} : prog T A -> prog T A -> Prop :=
| sub_get a k v : sub (k v) (Get a k)
| sub_put a v k : sub k (Put a v k).
Lemma sub_wf : forall T A (p : prog T A), Acc sub p.
Proof.
  induction p as [x|a k IH|a v k IH|e]; constructor; intros q Hq; inversion Hq; subst; auto;
    repeat match goal with H : existT _ _ _ = existT _ _ _ |- _ => apply Eqdep_dec.inj_pair2_eq_dec in H end; subst; auto.
Qed.
Inductive lsub {T A} : list (prog T A) -> list (prog T A) -> Prop :=
| lsub_at i p q ps : nth_error ps i = Some p -> sub q p -> lsub (replace i q ps) ps.
Lemma lsub_cons : forall T A (p : prog T A), Acc sub p -> forall ps, Acc lsub ps -> Acc lsub (p :: ps).
Proof.
  intros T A p Hp. induction Hp as [p Hp IHp]. intros ps Hps. induction Hps as [ps Hps IHps].
  constructor. intros qs Hq. inversion Hq as [i p' q ps' Hn Hs E1 E2]; subst. destruct i as [|i]; simpl in Hn.
  - inversion Hn; subst. change (replace 0 q (p' :: ps)) with (q :: ps). apply IHp; auto. constructor; auto.
  - change (replace (S i) q (p :: ps)) with (p :: replace i q ps). apply IHps. econstructor; eauto.
Qed.
Lemma lsub_wf : forall T A (ps : list (prog T A)), Acc lsub ps.
Proof.
  induction ps as [|p ps IH].
  - constructor. intros qs Hq. inversion Hq as [i p q ps Hn Hs E1 E2]; subst. destruct i; discriminate.
  - apply lsub_cons; auto. apply sub_wf.
Qed.
Lemma all_terminate : forall T A (ps : list (prog T A)) m, terminates (ps, m).
Proof.
  intros T A ps. induction (lsub_wf ps) as [ps _ IH]. intros m. constructor. intros c' Hs.
  inversion Hs; subst; apply IH; econstructor; eauto; constructor.
Qed.

Lemma nth_ext_opt : forall X (l l' : list X), (forall i, nth_error l i = nth_error l' i) -> l = l'.
Proof.
  induction l as [|x l IH]; intros [|y l'] H; auto; try (specialize (H 0); discriminate).
  assert (E := H 0). inversion E; subst. f_equal. apply IH. intros i. apply (H (S i)).
Qed.
Lemma start_inv : forall T A (ts : list (thread T A)) m xs ms,
  (forall i t, nth_error ts i = Some t -> touches (code t) (loads t) (stores t)) ->
  length xs = length ts -> length ms = length ts ->
  (forall i t x m', nth_error ts i = Some t -> nth_error xs i = Some x -> nth_error ms i = Some m' -> run (code t) m = Ok x m') ->
  inv ts m xs ms (map (@code T A) ts) m.
Proof.
  intros T A ts m xs ms Ht L1 L2 Hr. split; [apply map_length|]. split; auto. intros i t p Hi Hp.
  rewrite nth_error_map, Hi in Hp. inversion Hp; subst. split; [eauto|].
  assert (Hl := nth_lt _ _ Hi).
  destruct (nth_error xs i) as [x|] eqn:E1; [|apply nth_error_None in E1; lia].
  destruct (nth_error ms i) as [m'|] eqn:E2; [|apply nth_error_None in E2; lia].
  exists x, m', m'. repeat split; eauto.
Qed.
Lemma concurrent : forall T A (ts : list (thread T A)) m xs ms,
  non_interfering ts ->
  (forall i t, nth_error ts i = Some t -> touches (code t) (loads t) (stores t)) ->
  length xs = length ts -> length ms = length ts ->
  (forall i t x m', nth_error ts i = Some t -> nth_error xs i = Some x -> nth_error ms i = Some m' -> run (code t) m = Ok x m') ->
  terminates (map (@code T A) ts, m) /\
  forall ps m', steps (map (@code T A) ts, m) (ps, m') ->
    ~ data_race ps /\ ~ faulty ps m' /\
    ((forall c, ~ step (ps, m') c) ->
       finished ps xs /\
       (forall i t mi a, nth_error ts i = Some t -> nth_error ms i = Some mi -> stores t a -> m' a = mi a) /\
       (forall a, (forall i t, nth_error ts i = Some t -> ~ stores t a) -> m' a = m a)).
Proof.
  intros T A ts m xs ms Hn Ht L1 L2 Hr. split; [apply all_terminate|]. intros ps m' Hs.
  assert (I := inv_steps Hn Hs (start_inv _ _ _ _ Ht L1 L2 Hr)). simpl in I.
  split; [eapply inv_no_race; eauto|]. split; [eapply inv_no_fault; eauto|]. intros Hend.
  assert (Hfin : forall i p, nth_error ps i = Some p -> exists x, p = Ret x).
  { intros i p Hp. destruct p as [x|a k|a v k|e]; eauto; exfalso.
    - destruct (m' a) as [v|] eqn:E; [eapply Hend; eapply step_load; eauto|].
      eapply inv_no_fault; eauto. left; eauto 6.
    - destruct (m' a) as [w|] eqn:E; [eapply Hend; eapply step_store; eauto|].
      eapply inv_no_fault; eauto. right; left; eauto 8.
    - eapply inv_no_fault; eauto. right; right; eauto. }
  destruct I as (L & I & Ho). split; [|split; auto].
  - unfold finished. apply nth_ext_opt. intros i. rewrite nth_error_map.
    destruct (nth_error ps i) as [p|] eqn:Ep.
    + destruct (Hfin i p Ep) as [x ->]. assert (Hl := nth_lt _ _ Ep). rewrite L in Hl. apply nth_error_Some in Hl.
      destruct (nth_error ts i) as [t|] eqn:Et; [|congruence].
      destruct (I i t _ Et Ep) as (_ & y & mf & mf0 & H1 & H2 & H3 & _). rewrite H1. simpl in H3. inversion H3; subst. auto.
    + apply nth_error_None in Ep. replace (nth_error xs i) with (@None A) by (symmetry; apply nth_error_None; lia). auto.
  - intros i t mi a Et Em Wa. assert (Hl := nth_lt _ _ Et). rewrite <- L in Hl. apply nth_error_Some in Hl.
    destruct (nth_error ps i) as [p|] eqn:Ep; [|congruence]. destruct (Hfin i p Ep) as [x ->].
    destruct (I i t _ Et Ep) as (_ & y & mf & mf0 & H1 & H2 & H3 & H4). simpl in H3. inversion H3; subst.
    rewrite Em in H2. inversion H2; subst. auto.
Qed.

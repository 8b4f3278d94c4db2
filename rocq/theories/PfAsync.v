(** Lemmas about asynchronous execution (Async.v). *)
From Coq Require Import List Arith Lia Bool Relations.
From Verif Require Import Mem Scalar View Spec Par KK KKBlas KKNorm Async SpecA PfKK5.
Import ListNotations.
Set Implicit Arguments.

Section PfAsync.
Context {O : ops}.
Variable lib : kcall O -> mem O -> mem O -> Prop.
Notation hsteps := (hsteps lib).
Notation hstep := (hstep lib).

(** Finishing the queue, then running the regions of p. *)
Fixpoint qresult (q : list (item O)) (p : par O) (m m' : mem O) : Prop :=
  match q with
  | [] => par_result p m m'
  | Region ts :: q => exists ts' m1, reachable (ts, m) (ts', m1) /\ Forall (@finished O) ts' /\ qresult q p m1 m'
  | Lib _ :: _ => False
  end.
Lemma qresult_launch : forall q n body k m m', qresult (q ++ [Region (tasks n body)]) k m m' -> qresult q (PFor n body k) m m'.
Proof.
  induction q as [|[ts|c] q IH]; simpl; intros n body k m m' H.
  - destruct H as (ts' & m1 & H1 & H2 & H3). econstructor; eauto.
  - destruct H as (ts' & m1 & H1 & H2 & H3). exists ts', m1. auto.
  - exact H.
Qed.

Definition regions_only (q : list (item O)) : Prop := forall c, ~ In (Lib c) q.

(** The states reachable while the regions of p are launched and carried out, before [rest] starts. *)
Lemma launch_inv : forall p m0 rest s, hsteps (launch p rest, [], m0) s ->
  (exists p1 q m, s = (launch p1 rest, q, m) /\ regions_only q /\ forall m', qresult q p1 m m' -> par_result p m0 m') \/
  (exists q m, regions_only q /\ (forall m', qresult q PDone m m' -> par_result p m0 m') /\ hsteps (rest, q, m) s).
Proof.
  intros p m0 rest s H.
  remember (launch p rest, @nil (item O), m0) as s0 eqn:E.
  assert (I : (exists p1 q m, s0 = (launch p1 rest, q, m) /\ regions_only q /\ forall m', qresult q p1 m m' -> par_result p m0 m')).
  { exists p, [], m0. split; [exact E|]. split; [intros c []|]. simpl. auto. }
  clear E. induction H as [s|s s1 s2 St Rest IH].
  - left. exact I.
  - destruct I as (p1 & q & m & -> & RO & K).
    destruct p1 as [| | |n body k]; cbn [launch] in *.
    + right. exists q, m. split; [exact RO|]. split; [exact K|]. econstructor; eauto.
    + inversion St; subst; apply IH.
      * exists (PThrow), (Region ts' :: q0), m'. split; [reflexivity|]. split.
        { intros c [F|F]; [discriminate F|exact (RO c (or_intror F))]. }
        intros m2 (ts2 & m3 & R1 & R2 & R3). apply K. exists ts2, m3. split; [econstructor; eauto|auto].
      * exists (PThrow), q0, m. split; [reflexivity|]. split; [intros c F; exact (RO c (or_intror F))|].
        intros m2 R. apply K. exists ts, m. split; [constructor|auto].
      * exfalso. exact (RO c (or_introl eq_refl)).
    + inversion St; subst; apply IH.
      * exists (PIllFormed), (Region ts' :: q0), m'. split; [reflexivity|]. split.
        { intros c [F|F]; [discriminate F|exact (RO c (or_intror F))]. }
        intros m2 (ts2 & m3 & R1 & R2 & R3). apply K. exists ts2, m3. split; [econstructor; eauto|auto].
      * exists (PIllFormed), q0, m. split; [reflexivity|]. split; [intros c F; exact (RO c (or_intror F))|].
        intros m2 R. apply K. exists ts, m. split; [constructor|auto].
      * exfalso. exact (RO c (or_introl eq_refl)).
    + inversion St; subst; apply IH.
      * exists k, (q ++ [Region (tasks n body)]), m. split; [reflexivity|]. split.
        { intros c F. apply in_app_or in F. destruct F as [F|[F|[]]]; [exact (RO c F)|discriminate F]. }
        intros m2 R. apply K. apply qresult_launch. exact R.
      * exists (PFor n body k), (Region ts' :: q0), m'. split; [reflexivity|]. split.
        { intros c [F|F]; [discriminate F|exact (RO c (or_intror F))]. }
        intros m2 (ts2 & m3 & R1 & R2 & R3). apply K. exists ts2, m3. split; [econstructor; eauto|auto].
      * exists (PFor n body k), q0, m. split; [reflexivity|]. split; [intros c F; exact (RO c (or_intror F))|].
        intros m2 R. apply K. exists ts, m. split; [constructor|auto].
      * exfalso. exact (RO c (or_introl eq_refl)).
Qed.

(** Waiting for regions. *)
Lemma fence_wait : forall k q m s, regions_only q -> hsteps (HFence k, q, m) s ->
  (exists q' m1, s = (HFence k, q', m1)) \/
  (exists m1, (qresult q PDone m m1) /\ hsteps (k, [], m1) s).
Proof.
  intros k q m s RO H. remember (HFence k, q, m) as s0 eqn:E. revert q m RO E.
  induction H as [s|s s1 s2 St Rest IH]; intros q m RO ->.
  - left. eauto.
  - inversion St; subst.
    + right. exists m. split; [simpl; constructor|exact Rest].
    + destruct (IH (Region ts' :: q0) m') as [L|(m1 & (ts2 & m3 & R1 & R2 & R3) & R)]; auto.
      { intros c [F|F]; [discriminate F|exact (RO c (or_intror F))]. }
      right. exists m1. split; [|exact R]. exists ts2, m3. split; [econstructor; eauto|auto].
    + destruct (IH q0 m) as [L|(m1 & R1 & R)]; auto.
      { intros c F; exact (RO c (or_intror F)). }
      right. exists m1. split; [|exact R]. exists ts, m. split; [constructor|auto].
    + exfalso. exact (RO c (or_introl eq_refl)).
Qed.

Lemma launch_not_done : forall (p : par O) rest, rest <> HDone -> launch p rest <> HDone.
Proof. intros [| | |n b k] rest H; simpl; auto; discriminate. Qed.
Lemma done_steps : forall q m s, hsteps (HDone, q, m) s -> exists q' m', s = (HDone, q', m').
Proof.
  intros q m s H. remember (HDone, q, m) as s0 eqn:E. revert q m E.
  induction H as [s|s s1 s2 St Rest IH]; intros q m ->; [eauto|]. inversion St; subst; eapply IH; reflexivity.
Qed.
Lemma done_empty : forall m s, hsteps (HDone, [], m) s -> s = (HDone, [], m).
Proof. intros m s H. inversion H as [|s1 s2 St Rest]; [reflexivity|]. inversion St. Qed.

(** Regions followed by a fence: on return everything is carried out. *)
Lemma launch_fence_ok : forall p m q m', hsteps (launch p (HFence HDone), [], m) (HDone, q, m') ->
  q = [] /\ par_result p m m'.
Proof.
  intros p m q m' H. destruct (launch_inv _ _ H) as [(p1 & q1 & m1 & E & _)|(q1 & m1 & RO & K & R)].
  - injection E as E _ _. exfalso. refine (@launch_not_done p1 (HFence HDone) _ (eq_sym E)). discriminate.
  - destruct (fence_wait RO R) as [(q2 & m2 & E)|(m2 & R1 & R2)]; [discriminate E|].
    apply done_empty in R2. injection R2 as -> ->. auto.
Qed.
(** A throwing overload has started nothing. *)
Lemma launch_throw_ok : forall (p : par O) rest, p = PThrow -> launch p rest = HThrow.
Proof. intros p rest ->. reflexivity. Qed.

(** Regions without a fence: the host can return before any has made a step. *)
Fixpoint goes_through (p : par O) : Prop :=
  match p with PDone => True | PFor _ _ k => goes_through k | _ => False end.
Fixpoint queue_of (p : par O) : list (item O) :=
  match p with PFor n body k => Region (tasks n body) :: queue_of k | _ => [] end.
Lemma launch_early : forall p rest q m, goes_through p -> hsteps (launch p rest, q, m) (rest, q ++ queue_of p, m).
Proof.
  induction p as [| | |n body k IH]; simpl; intros rest q m C; try contradiction.
  - rewrite app_nil_r. constructor.
  - econstructor; [apply h_launch|]. change (Region (tasks n body) :: queue_of k) with ([Region (tasks n body)] ++ queue_of k).
    rewrite app_assoc. apply IH. exact C.
Qed.
Lemma goes_seq : forall p q, goes_through p -> goes_through q -> goes_through (par_seq p q).
Proof. induction p; simpl; intros; auto; contradiction. Qed.
Lemma goes_for : forall n lo (b : nat -> par O), (forall i, goes_through (b i)) -> goes_through (par_for lo n b).
Proof. induction n; simpl; intros; auto. apply goes_seq; auto. Qed.
Lemma result_goes : forall (p : par O) m m', par_result p m m' -> goes_through p.
Proof. induction 1; simpl; auto. Qed.

(** Library calls: the host returns with the last one still in the queue. *)
Lemma call_early : forall c m, hsteps (HCall c HDone, [], m) (HDone, [Lib c], m).
Proof. intros c m. econstructor; [apply h_call|]. constructor. Qed.
Lemma copy_call_early : forall c0 c m m1, lib c0 m m1 ->
  hsteps (HFence (HCall c0 (HFence (HCall c HDone))), [], m) (HDone, [Lib c], m1).
Proof.
  intros c0 c m m1 H. econstructor; [apply h_fence|]. econstructor; [apply h_call|]. simpl.
  econstructor; [apply d_lib; exact H|]. econstructor; [apply h_fence|]. apply call_early.
Qed.
Lemma copy_fence_ok : forall c m q m', hsteps (HCall c (HFence HDone), [], m) (HDone, q, m') -> q = [] /\ lib c m m'.
Proof.
  intros c m q m' H. inversion H as [|s1 s2 St Rest]; subst. inversion St; subst; simpl in Rest.
  inversion Rest as [|s1 s2 St1 Rest1]; subst. inversion St1; subst.
  inversion Rest1 as [|s1 s2 St2 Rest2]; subst. inversion St2; subst.
  apply done_empty in Rest2. injection Rest2 as -> ->. auto.
Qed.
End PfAsync.

Section Overloads.
Context {O : ops}.
Lemma fenced_complete : forall p : par O, complete_on_return (fenced p) p.
Proof. intros p lib m q m' H. eapply launch_fence_ok; eassumption. Qed.

(** A complete execution of the regions is one way for a fenced overload to return. *)
Lemma drain : forall lib h (q : list (item O)) p m m', regions_only q -> qresult q p m m' ->
  exists m1, hsteps lib (h, q, m) (h, [], m1) /\ par_result p m1 m'.
Proof.
  intros lib h. induction q as [|[ts|c] q IH]; simpl; intros p m m' RO H.
  - exists m. split; [constructor|exact H].
  - destruct H as (ts' & m1 & R & F & H).
    destruct (IH p m1 m') as (m2 & S2 & P2); [intros c F1; exact (RO c (or_intror F1))|exact H|].
    exists m2. split; [|exact P2].
    assert (G : forall s, hsteps lib (h, Region ts' :: q, m1) s -> hsteps lib (h, Region ts :: q, m) s).
    { clear - R. intros s Hs. remember (ts, m) as a eqn:Ea. remember (ts', m1) as b eqn:Eb. revert ts m Ea.
      induction R as [x|x y z St Rest IHR]; intros ts m ->.
      - injection Eb as -> ->. exact Hs.
      - destruct y as [ts2 m2]. econstructor; [apply d_region; exact St|]. apply IHR; auto. }
    apply G. econstructor; [apply d_done; exact F|exact S2].
  - contradiction.
Qed.
Lemma queue_result : forall (p : par O) m m', par_result p m m' -> qresult (queue_of p) PDone m m'.
Proof. induction 1; simpl; [constructor|]. exists ts, m1. auto. Qed.
Lemma queue_regions : forall p : par O, regions_only (queue_of p).
Proof. induction p; simpl; intros c F; auto. destruct F as [F|F]; [discriminate F|exact (IHp c F)]. Qed.
Lemma steps_trans : forall lib (s1 s2 s3 : hprog O * list (item O) * mem O), hsteps lib s1 s2 -> hsteps lib s2 s3 -> hsteps lib s1 s3.
Proof. intros lib s1 s2 s3 H. induction H as [s|s s' s'' St R IH]; intros K; [exact K|]. eapply Relation_Operators.rt1n_trans; [exact St|exact (IH K)]. Qed.
Lemma fenced_returns : forall lib (p : par O) m m', par_result p m m' -> returns_with (fenced p) lib m [] m'.
Proof.
  intros lib p m m' H. unfold returns_with, fenced.
  eapply steps_trans; [apply launch_early; eapply result_goes; exact H|]. simpl.
  destruct (@drain lib (HFence HDone) _ _ _ _ (@queue_regions p) (queue_result H)) as (m1 & S & P).
  inversion P; subst. eapply steps_trans; [exact S|]. econstructor; [apply h_fence|constructor].
Qed.
Lemma fenced_ok : forall lib (h : hprog O) p m (Q : mem O -> Prop), complete_on_return h p -> par_succeeds p m Q ->
  forall q m', returns_with h lib m q m' -> q = [] /\ Q m'.
Proof.
  intros lib h p m Q C H q m' R. destruct (C _ _ _ _ R) as [-> P]. split; [reflexivity|].
  exact (proj2 (@par_completes _ _ _ _ H) _ P).
Qed.
Lemma fenced_can_return : forall lib (p : par O) m Q, par_succeeds p m Q -> exists m', returns_with (fenced p) lib m [] m'.
Proof. intros lib p m Q H. destruct (proj1 (@par_completes _ _ _ _ H)) as [m' P]. exists m'. apply fenced_returns. exact P. Qed.

Lemma copy_swap_ok : forall (x y : vec O) (A B : mat O),
  complete_on_return (h_copy_2 A B) (kk_copy_2 A B) /\
  complete_on_return (h_swap_1 x y) (kk_swap_1 x y) /\
  complete_on_return (h_swap_2 A B) (kk_swap_2 A B) /\
  (forall lib m q m', returns_with (h_deep_copy_1 x y) lib m q m' ->
     q = [] /\ lib (KCopy1 (view_v y) (view_v x)) m m') /\
  (forall lib m q m', returns_with (h_deep_copy_2 A B) lib m q m' ->
     q = [] /\ exists c, kb_copy_2 A B = KCall c KDone /\ lib c m m').
Proof.
  intros x y A B. split; [apply fenced_complete|]. split; [apply fenced_complete|]. split; [apply fenced_complete|]. split.
  - intros lib m q m' H. exact (copy_fence_ok H).
  - intros lib m q m' H. unfold h_deep_copy_2, returns_with in H.
    assert (E : (exists c, kb_copy_2 A B = KCall c KDone) \/ kb_copy_2 A B = KIllFormed).
    { unfold kb_copy_2, kview. repeat match goal with |- context [match ?l with LLeft => _ | _ => _ end] => destruct l end; eauto. }
    destruct E as [[c E]|E]; rewrite E in H.
    + destruct (copy_fence_ok H) as [-> L]. eauto.
    + inversion H as [|s1 s2 St Rest]; subst. inversion St.
Qed.

(** Regions without a fence *)
Lemma unfenced_early : forall lib (p : par O) m Q, par_succeeds p m Q ->
  exists q, returns_with (launch p HDone) lib m q m /\ length q = length (queue_of p).
Proof.
  intros lib p m Q H. destruct (proj1 (@par_completes _ _ _ _ H)) as [m' P]. exists (queue_of p). split; [|reflexivity].
  apply (launch_early lib p HDone [] m). eapply result_goes. exact P.
Qed.
Lemma unfenced_wait : forall lib (p : par O) m q m', returns_with (launch p (HFence HDone)) lib m q m' -> q = [] /\ par_result p m m'.
Proof. intros lib p m q m' H. eapply launch_fence_ok; exact H. Qed.
End Overloads.

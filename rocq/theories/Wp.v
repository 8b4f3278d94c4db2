(** Total-correctness reasoning: [succeeds] as a weakest precondition, rules for program
    constructs and loops, and facts about views under updates. *)
From Coq Require Import List Arith Lia Bool.
From Verif Require Import Mem Scalar View Spec.
Import ListNotations.
Set Implicit Arguments.

Arguments Nat.min : simpl never.
Arguments Nat.sub : simpl never.
Arguments Nat.leb : simpl never.
Arguments Nat.ltb : simpl never.
Arguments Nat.eqb : simpl never.

(** Case analysis on all nat comparisons of the goal. *)
Ltac bcase :=
  cbv beta;
  repeat (match goal with
  | |- context [?a <? ?b] => destruct (Nat.ltb_spec a b)
  | |- context [?a <=? ?b] => destruct (Nat.leb_spec a b)
  | |- context [?a =? ?b] => destruct (Nat.eqb_spec a b)
  end; simpl; try lia);
  subst; simpl; auto; try lia.

(** Decide the comparisons of the goal that [lia] can decide. *)
Ltac bdec :=
  cbv beta;
  repeat (match goal with
  | |- context [?a <? ?b] => first [ replace (a <? b) with true by (symmetry; apply Nat.ltb_lt; lia)
                                   | replace (a <? b) with false by (symmetry; apply Nat.ltb_ge; lia) ]
  | |- context [?a <=? ?b] => first [ replace (a <=? b) with true by (symmetry; apply Nat.leb_le; lia)
                                    | replace (a <=? b) with false by (symmetry; apply Nat.leb_gt; lia) ]
  | |- context [?a =? ?b] => first [ replace (a =? b) with true by (symmetry; apply Nat.eqb_eq; lia)
                                   | replace (a =? b) with false by (symmetry; apply Nat.eqb_neq; lia) ]
  end; cbn [andb orb negb]).

(** * Basic facts about runs *)
Lemma run_bind : forall T A B (p : prog T A) (f : A -> prog T B) m,
  run (bind p f) m = match run p m with Ok x m' => run (f x) m' | Err e m' => Err e m' end.
Proof.
  induction p as [x | a k IH | a v k IH | e]; simpl; intros f m; auto.
  - destruct (m a); auto.
  - destruct (m a); auto.
Qed.

Lemma wp_ret : forall T A (x : A) (m : mem T) (Q : A -> mem T -> Prop), Q x m -> succeeds (Ret x) m Q.
Proof. intros; exists x, m; auto. Qed.

Lemma wp_bind : forall T A B (p : prog T A) (f : A -> prog T B) m Q,
  succeeds p m (fun x m' => succeeds (f x) m' Q) -> succeeds (bind p f) m Q.
Proof.
  intros T A B p f m Q (x & m' & H1 & y & m'' & H2 & HQ).
  exists y, m''; split; auto. rewrite run_bind, H1; auto.
Qed.

Lemma wp_conseq : forall T A (p : prog T A) m (Q Q' : A -> mem T -> Prop),
  succeeds p m Q -> (forall x m', Q x m' -> Q' x m') -> succeeds p m Q'.
Proof. intros T A p m Q Q' (x & m' & H & HQ) HI; exists x, m'; auto. Qed.

Lemma wp_for : forall T (I : nat -> mem T -> Prop) lo n body m (Q : unit -> mem T -> Prop),
  I lo m ->
  (forall i m', lo <= i < lo + n -> I i m' -> succeeds (body i) m' (fun _ m'' => I (S i) m'')) ->
  (forall m', I (lo + n) m' -> Q tt m') ->
  succeeds (for_ lo n body) m Q.
Proof.
  intros T I lo n; revert lo; induction n as [|n IH]; intros lo body m Q H0 Hs HQ; simpl.
  - apply wp_ret, HQ. rewrite Nat.add_0_r; auto.
  - apply wp_bind. eapply wp_conseq. { apply Hs; auto; lia. }
    intros [] m' HI. apply IH; auto.
    + intros i m'' Hi; apply Hs; lia.
    + intros m''; replace (S lo + n) with (lo + S n) by lia; auto.
Qed.

Lemma wp_for_range : forall T (I : nat -> mem T -> Prop) lo hi body m (Q : unit -> mem T -> Prop),
  lo <= hi ->
  I lo m ->
  (forall i m', lo <= i < hi -> I i m' -> succeeds (body i) m' (fun _ m'' => I (S i) m'')) ->
  (forall m', I hi m' -> Q tt m') ->
  succeeds (for_range lo hi body) m Q.
Proof.
  intros; unfold for_range; eapply wp_for with (I := I); eauto.
  - intros; apply H1; auto; lia.
  - replace (lo + (hi - lo)) with hi by lia; auto.
Qed.

Lemma wp_for_down : forall T (I : nat -> mem T -> Prop) n body m (Q : unit -> mem T -> Prop),
  I n m ->
  (forall i m', i < n -> I (S i) m' -> succeeds (body i) m' (fun _ m'' => I i m'')) ->
  (forall m', I 0 m' -> Q tt m') ->
  succeeds (for_down n body) m Q.
Proof.
  intros T I n; induction n as [|n IH]; intros body m Q H0 Hs HQ; simpl.
  - apply wp_ret, HQ; auto.
  - apply wp_bind. eapply wp_conseq. { apply Hs; auto. }
    intros [] m' HI. apply IH; auto.
Qed.

Lemma wp_fold : forall T A (I : nat -> A -> mem T -> Prop) lo n body acc m (Q : A -> mem T -> Prop),
  I lo acc m ->
  (forall i a m', lo <= i < lo + n -> I i a m' -> succeeds (body i a) m' (fun a' m'' => I (S i) a' m'')) ->
  (forall a m', I (lo + n) a m' -> Q a m') ->
  succeeds (fold_ lo n body acc) m Q.
Proof.
  intros T A I lo n; revert lo; induction n as [|n IH]; intros lo body acc m Q H0 Hs HQ; simpl.
  - apply wp_ret, HQ. rewrite Nat.add_0_r; auto.
  - apply wp_bind. eapply wp_conseq. { apply Hs; auto; lia. }
    intros a m' HI. apply IH; auto.
    + intros i a' m'' Hi; apply Hs; lia.
    + intros a' m''; replace (S lo + n) with (lo + S n) by lia; auto.
Qed.

Lemma wp_fold_range : forall T A (I : nat -> A -> mem T -> Prop) lo hi body acc m (Q : A -> mem T -> Prop),
  lo <= hi ->
  I lo acc m ->
  (forall i a m', lo <= i < hi -> I i a m' -> succeeds (body i a) m' (fun a' m'' => I (S i) a' m'')) ->
  (forall a m', I hi a m' -> Q a m') ->
  succeeds (fold_range lo hi body acc) m Q.
Proof.
  intros; unfold fold_range; eapply wp_fold with (I := I); eauto.
  - intros; apply H1; auto; lia.
  - replace (lo + (hi - lo)) with hi by lia; auto.
Qed.

(** * Element accesses *)
Lemma wp_vget : forall (O : ops) (x : vec O) f i m (Q : O -> mem O -> Prop),
  vec_holds m x f -> i < vext x -> Q (f i) m -> succeeds (vget x i) m Q.
Proof.
  intros O x f i m Q H Hi HQ. destruct (H i Hi) as (v & Hv & Hf).
  exists (f i), m; split; auto. unfold vget.
  apply Nat.ltb_lt in Hi; rewrite Hi; simpl; rewrite Hv, Hf; auto.
Qed.

Lemma wp_mget : forall (O : ops) (A : mat O) P f i j m (Q : O -> mem O -> Prop),
  mat_holds_on m A P f -> i < ext0 A -> j < ext1 A -> P i j -> Q (f i j) m -> succeeds (mget A i j) m Q.
Proof.
  intros O A P f i j m Q H Hi Hj HP HQ. destruct (H i j Hi Hj HP) as (v & Hv & Hf).
  exists (f i j), m; split; auto. unfold mget.
  apply Nat.ltb_lt in Hi; apply Nat.ltb_lt in Hj; rewrite Hi, Hj; simpl; rewrite Hv, Hf; auto.
Qed.

Lemma upd_same : forall T (m : mem T) a v, upd m a v a = Some v.
Proof. intros; unfold upd; rewrite Nat.eqb_refl; auto. Qed.
Lemma upd_other : forall T (m : mem T) a b v, b <> a -> upd m a v b = m b.
Proof. intros; unfold upd. apply Nat.eqb_neq in H; rewrite H; auto. Qed.

(** * Functions updated at a point *)
Definition fset {T} (f : nat -> T) (i : nat) (v : T) : nat -> T :=
  fun k => if k =? i then v else f k.
Definition fset2 {T} (f : nat -> nat -> T) (i j : nat) (v : T) : nat -> nat -> T :=
  fun k l => if (k =? i) && (l =? j) then v else f k l.

(** * State of an output view relative to the initial memory *)
Definition vst {O : ops} (m0 m : mem O) (x : vec O) (f : nat -> O) : Prop :=
  vec_holds m x f /\ changes_only m0 m (vcells x).
Definition mst {O : ops} (m0 m : mem O) (A : mat O) (P : nat -> nat -> Prop) (f : nat -> nat -> O) : Prop :=
  mat_holds_on m A P f /\ changes_only m0 m (mcells_on A P).

Lemma vec_holds_ext : forall (O : ops) (m : mem O) x f g,
  (forall i, i < vext x -> f i = g i) -> vec_holds m x f -> vec_holds m x g.
Proof. intros O m x f g E H i Hi. rewrite <- E by auto. apply H; auto. Qed.
Lemma mat_holds_on_ext : forall (O : ops) (m : mem O) A (P : nat -> nat -> Prop) f g,
  (forall i j, i < ext0 A -> j < ext1 A -> P i j -> f i j = g i j) ->
  mat_holds_on m A P f -> mat_holds_on m A P g.
Proof. intros O m A P f g E H i j Hi Hj HP. rewrite <- E by auto. apply H; auto. Qed.
Lemma mat_holds_on_weaken : forall (O : ops) (m : mem O) A (P P' : nat -> nat -> Prop) f,
  (forall i j, i < ext0 A -> j < ext1 A -> P' i j -> P i j) ->
  mat_holds_on m A P f -> mat_holds_on m A P' f.
Proof. intros O m A P P' f E H i j Hi Hj HP. apply H; auto. Qed.
Lemma vst_ext : forall (O : ops) (m0 m : mem O) x f g,
  (forall i, i < vext x -> f i = g i) -> vst m0 m x f -> vst m0 m x g.
Proof. intros O m0 m x f g E [H1 H2]; split; auto. eapply vec_holds_ext; eauto. Qed.
Lemma mst_ext : forall (O : ops) (m0 m : mem O) A (P : nat -> nat -> Prop) f g,
  (forall i j, i < ext0 A -> j < ext1 A -> P i j -> f i j = g i j) -> mst m0 m A P f -> mst m0 m A P g.
Proof. intros O m0 m A P f g E [H1 H2]; split; auto. eapply mat_holds_on_ext; eauto. Qed.

Lemma changes_only_refl : forall T (m : mem T) S, changes_only m m S.
Proof. intros T m S a _; auto. Qed.
Lemma changes_only_trans : forall T (m1 m2 m3 : mem T) S,
  changes_only m1 m2 S -> changes_only m2 m3 S -> changes_only m1 m3 S.
Proof. intros T m1 m2 m3 S H1 H2 a Ha. rewrite H2, H1; auto. Qed.
Lemma changes_only_mono : forall T (m m' : mem T) (S S' : cellset),
  (forall a, S a -> S' a) -> changes_only m m' S -> changes_only m m' S'.
Proof. intros T m m' S S' HS H a Ha; apply H; auto. Qed.

Lemma vst_init : forall (O : ops) (m : mem O) x f, vec_holds m x f -> vst m m x f.
Proof. intros; split; auto. apply changes_only_refl. Qed.
Lemma mst_init : forall (O : ops) (m : mem O) A P f, mat_holds_on m A P f -> mst m m A P f.
Proof. intros; split; auto. apply changes_only_refl. Qed.

(** Contents of an allocated view with default accessor (the default [zero] is never used there). *)
Definition contents_v {O : ops} (m : mem O) (x : vec O) (i : nat) : O :=
  match m (vaddr x i) with Some v => acc_read (vacc x) v | None => zero end.
Definition contents_m {O : ops} (m : mem O) (A : mat O) (i j : nat) : O :=
  match m (maddr A i j) with Some v => acc_read (macc A) v | None => zero end.

Lemma alloc_vec_holds : forall (O : ops) (m : mem O) x,
  allocated m (vcells x) -> vec_holds m x (contents_v m x).
Proof.
  intros O m x H i Hi. unfold contents_v. specialize (H (vaddr x i)).
  destruct (m (vaddr x i)) as [v|] eqn:E; [exists v; auto|].
  exfalso; apply H; auto. exists i; auto.
Qed.
Lemma alloc_mat_holds : forall (O : ops) (m : mem O) A (P : nat -> nat -> Prop),
  allocated m (mcells_on A P) -> mat_holds_on m A P (contents_m m A).
Proof.
  intros O m A P H i j Hi Hj HP. unfold contents_m. specialize (H (maddr A i j)).
  destruct (m (maddr A i j)) as [v|] eqn:E; [exists v; auto|].
  exfalso; apply H; auto. exists i, j; auto.
Qed.
Lemma vec_holds_alloc : forall (O : ops) (m : mem O) x f, vec_holds m x f -> allocated m (vcells x).
Proof. intros O m x f H a (i & Hi & ->). destruct (H i Hi) as (v & Hv & _). congruence. Qed.
Lemma mat_holds_alloc : forall (O : ops) (m : mem O) A (P : nat -> nat -> Prop) f,
  mat_holds_on m A P f -> allocated m (mcells_on A P).
Proof. intros O m A P f H a (i & j & Hi & Hj & HP & ->). destruct (H i j Hi Hj HP) as (v & Hv & _). congruence. Qed.

(** Writing one element of the output. *)
Lemma wp_vset : forall (O : ops) (m0 m : mem O) (x : vec O) f i v (Q : unit -> mem O -> Prop),
  vwritable x -> vst m0 m x f -> i < vext x ->
  (forall m', vst m0 m' x (fset f i v) -> Q tt m') ->
  succeeds (vset x i v) m Q.
Proof.
  intros O m0 m x f i v Q [Hd Hu] [H1 H2] Hi HQ.
  exists tt, (upd m (vaddr x i) v). split.
  - unfold vset. rewrite Hd. pose proof Hi as Hi'. apply Nat.ltb_lt in Hi'; rewrite Hi'; simpl.
    destruct (H1 i Hi) as (w & Hw & _). rewrite Hw; auto.
  - apply HQ. split.
    + intros k Hk. unfold fset. destruct (Nat.eqb_spec k i) as [->|Hne].
      * exists v; split; [apply upd_same | rewrite Hd; auto].
      * rewrite upd_other; [apply H1; auto|]. intros E; apply Hne; auto.
    + intros a Ha. rewrite upd_other; [apply H2; auto|]. intros ->. apply Ha. exists i; auto.
Qed.

Lemma wp_mset : forall (O : ops) (m0 m : mem O) (A : mat O) (P : nat -> nat -> Prop) f i j v (Q : unit -> mem O -> Prop),
  mwritable_on A P -> mst m0 m A P f -> i < ext0 A -> j < ext1 A -> P i j ->
  (forall m', mst m0 m' A P (fset2 f i j v) -> Q tt m') ->
  succeeds (mset A i j v) m Q.
Proof.
  intros O m0 m A P f i j v Q [Hd Hu] [H1 H2] Hi Hj HP HQ.
  exists tt, (upd m (maddr A i j) v). split.
  - unfold mset. rewrite Hd. pose proof Hi as Hi'; pose proof Hj as Hj'.
    apply Nat.ltb_lt in Hi'; apply Nat.ltb_lt in Hj'; rewrite Hi', Hj'; simpl.
    destruct (H1 i j Hi Hj HP) as (w & Hw & _). rewrite Hw; auto.
  - apply HQ. split.
    + intros k l Hk Hl HPk. unfold fset2.
      destruct ((k =? i) && (l =? j)) eqn:E.
      * apply andb_prop in E; destruct E as [E1 E2]; apply Nat.eqb_eq in E1, E2; subst.
        exists v; split; [apply upd_same | rewrite Hd; auto].
      * rewrite upd_other; [apply H1; auto|]. intros Ea.
        destruct (Hu _ _ _ _ Hk Hl Hi Hj HPk HP Ea); subst.
        rewrite !Nat.eqb_refl in E; discriminate.
    + intros a Ha. rewrite upd_other; [apply H2; auto|]. intros ->. apply Ha. exists i, j; auto.
Qed.

(** Inputs that do not overlap the output keep their contents. *)
Lemma vec_holds_frame : forall (O : ops) (m0 m : mem O) x f S,
  vec_holds m0 x f -> changes_only m0 m S -> disjoint (vcells x) S -> vec_holds m x f.
Proof.
  intros O m0 m x f S H Hc Hd i Hi. destruct (H i Hi) as (v & Hv & Hf).
  exists v; split; auto. rewrite Hc; auto. intros HS; eapply Hd; eauto. exists i; auto.
Qed.
Lemma mat_holds_frame : forall (O : ops) (m0 m : mem O) A (P : nat -> nat -> Prop) f S,
  mat_holds_on m0 A P f -> changes_only m0 m S -> disjoint (mcells_on A P) S -> mat_holds_on m A P f.
Proof.
  intros O m0 m A P f S H Hc Hd i j Hi Hj HP. destruct (H i j Hi Hj HP) as (v & Hv & Hf).
  exists v; split; auto. rewrite Hc; auto. intros HS; eapply Hd; eauto. exists i, j; auto.
Qed.

(** * Sums *)
Lemma sum_from_0 : forall (O : ops) (s : O) lo f, sum_from s lo 0 f = s.
Proof. reflexivity. Qed.
Lemma sum_from_S : forall (O : ops) (s : O) lo n f,
  sum_from s lo (S n) f = (sum_from s lo n f + f (lo + n)%nat)%sc.
Proof.
  intros; unfold sum_from. rewrite seq_S, fold_left_app; reflexivity.
Qed.
Lemma sum_from_head : forall (O : ops) (s : O) lo n f,
  sum_from s lo (S n) f = sum_from (s + f lo)%sc (S lo) n f.
Proof. reflexivity. Qed.
Lemma sum_from_ext : forall (O : ops) (s : O) lo n f g,
  (forall k, lo <= k < lo + n -> f k = g k) -> sum_from s lo n f = sum_from s lo n g.
Proof.
  intros O s lo n f g; induction n as [|n IH]; intros H; auto.
  rewrite !sum_from_S, IH, H; auto; try lia. intros; apply H; lia.
Qed.
Lemma sum_from_app : forall (O : ops) (s : O) lo n1 n2 f,
  sum_from s lo (n1 + n2) f = sum_from (sum_from s lo n1 f) (lo + n1) n2 f.
Proof. intros; unfold sum_from. rewrite seq_app, fold_left_app; reflexivity. Qed.
Lemma sum_from_shift : forall (O : ops) (s : O) lo d n f,
  sum_from s (lo + d) n f = sum_from s lo n (fun k => f (k + d)).
Proof.
  intros; induction n as [|n IH]; auto. rewrite !sum_from_S, IH. do 2 f_equal; lia.
Qed.

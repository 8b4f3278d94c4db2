(** Norms depend on the elements through their magnitudes only, in any arithmetic. *)
From Coq Require Import List Arith Bool Lia.
From Verif Require Import Mem Scalar View Spec Wp Norm SpecR PfNorm.
Import ListNotations.

Section Pf.
Context {O O2 : ops} {F : rops} (M : mags O F) (M2 : mags O2 F).
Variables (m : mem O) (m2 : mem O2).

(** Two read-only computations with the same result. *)
Definition agree {A} (p : prog O A) (q : prog O2 A) : Prop := exists a, run p m = Ok a m /\ run q m2 = Ok a m2.
Lemma agree_ret : forall A (a : A), agree (Ret a) (Ret a).
Proof. intros. exists a. auto. Qed.
Lemma agree_bind : forall A B (p : prog O A) (q : prog O2 A) (k : A -> prog O B) (k2 : A -> prog O2 B),
  agree p q -> (forall a, agree (k a) (k2 a)) -> agree (bind p k) (bind q k2).
Proof. intros A B p q k k2 (a & H1 & H2) K. destruct (K a) as (b & K1 & K2). exists b. rewrite !run_bind, H1, H2. auto. Qed.
Lemma agree_fold : forall A lo hi (b : nat -> A -> prog O A) (b2 : nat -> A -> prog O2 A) a,
  (forall i a, lo <= i < hi -> agree (b i a) (b2 i a)) -> agree (fold_range lo hi b a) (fold_range lo hi b2 a).
Proof.
  intros A lo hi b b2 a H. unfold fold_range. remember (hi - lo) as n eqn:En. revert lo a H En.
  induction n as [|n IH]; intros lo a H En; simpl; [apply agree_ret|].
  apply agree_bind; [apply H; lia|]. intros a'. apply IH; [|lia]. intros i a0 Hi. apply H. lia.
Qed.
Lemma agree_vget : forall A x y f g i (k : O -> prog O A) (k2 : O2 -> prog O2 A), vec_holds m x f -> vec_holds m2 y g ->
  i < vext x -> vext y = vext x -> agree (k (f i)) (k2 (g i)) -> agree (bind (vget x i) k) (bind (vget y i) k2).
Proof.
  intros A x y f g i k k2 Hx Hy Hi E (a & K1 & K2). exists a. rewrite !run_bind.
  destruct (@returns_vget O m x f i (fun v => v = f i) Hx Hi eq_refl) as (v & -> & ->).
  destruct (@returns_vget O2 m2 y g i (fun v => v = g i) Hy ltac:(lia) eq_refl) as (w & -> & ->). auto.
Qed.
Lemma agree_mget : forall A X Y f g i j (k : O -> prog O A) (k2 : O2 -> prog O2 A), mat_holds m X f -> mat_holds m2 Y g ->
  i < ext0 X -> j < ext1 X -> ext0 Y = ext0 X -> ext1 Y = ext1 X ->
  agree (k (f i j)) (k2 (g i j)) -> agree (bind (mget X i j) k) (bind (mget Y i j) k2).
Proof.
  intros A X Y f g i j k k2 Hx Hy Hi Hj E0 E1 (a & K1 & K2). exists a. rewrite !run_bind.
  destruct (@returns_mget O m X f i j (fun v => v = f i j) Hx Hi Hj eq_refl) as (v & -> & ->).
  destruct (@returns_mget O2 m2 Y g i j (fun v => v = g i j) Hy ltac:(lia) ltac:(lia) eq_refl) as (w & -> & ->). auto.
Qed.

Section Vec.
Variables (x : vec O) (y : vec O2) (f : nat -> O) (g : nat -> O2).
Hypothesis Hx : vec_holds m x f.
Hypothesis Hy : vec_holds m2 y g.
Hypothesis En : vext y = vext x.
Lemma agree_abs_sum : forall init, arithmetic M = arithmetic M2 ->
  (forall i, i < vext x -> if arithmetic M then eabs M (f i) = eabs M2 (g i)
     else rabs (ereal M (f i)) = rabs (ereal M2 (g i)) /\ rabs (eimag M (f i)) = rabs (eimag M2 (g i))) ->
  agree (vector_abs_sum M x init) (vector_abs_sum M2 y init).
Proof.
  intros init EA H. unfold vector_abs_sum. rewrite <- EA, En. destruct (arithmetic M); apply agree_fold; intros i a Hi.
  - eapply agree_vget; eauto; [lia|]. rewrite (H i ltac:(lia)). apply agree_ret.
  - eapply agree_vget; eauto; [lia|]. eapply agree_vget; eauto; [lia|].
    destruct (H i ltac:(lia)) as [-> ->]. apply agree_ret.
Qed.
Hypothesis H : forall i, i < vext x -> eabs M (f i) = eabs M2 (g i).
Lemma agree_ssq : forall init, agree (vector_sum_of_squares M x init) (vector_sum_of_squares M2 y init).
Proof.
  intros init. unfold vector_sum_of_squares. rewrite En. destruct (vext x =? 0); [apply agree_ret|].
  apply agree_fold. intros i a Hi. unfold ssq_step. eapply agree_vget; eauto; [lia|]. rewrite (H i ltac:(lia)).
  destruct (reqb _ _); [apply agree_ret|]. eapply agree_vget; eauto; [lia|]. cbv zeta. rewrite (H i ltac:(lia)).
  destruct (rltb _ _); apply agree_ret.
Qed.
Lemma agree_two_norm : forall init, agree (vector_two_norm M x init) (vector_two_norm M2 y init).
Proof. intros init. unfold vector_two_norm. apply agree_bind; [apply agree_ssq|]. intros. apply agree_ret. Qed.
End Vec.

Section Mat.
Variables (X : mat O) (Y : mat O2) (a : nat -> nat -> O) (b : nat -> nat -> O2).
Hypothesis HX : mat_holds m X a.
Hypothesis HY : mat_holds m2 Y b.
Hypothesis E0 : ext0 Y = ext0 X.
Hypothesis E1 : ext1 Y = ext1 X.
Hypothesis H : forall i j, i < ext0 X -> j < ext1 X -> eabs M (a i j) = eabs M2 (b i j).
Ltac start := rewrite E0, E1;
  destruct (Nat.eqb_spec (ext0 X) 0) as [N0|N0]; cbn [orb]; [apply agree_ret|];
  destruct (Nat.eqb_spec (ext1 X) 0) as [N1|N1]; cbn [orb]; [apply agree_ret|];
  destruct ((ext0 X =? 1) && (ext1 X =? 1));
  [eapply agree_mget; eauto; [lia|lia|]; rewrite (H 0 0) by lia; apply agree_ret|].
Lemma agree_frob : forall init, agree (matrix_frob_norm M X init) (matrix_frob_norm M2 Y init).
Proof.
  intros init. unfold matrix_frob_norm. start. apply agree_bind; [|intros; apply agree_ret].
  apply agree_fold. intros i s Hi. apply agree_fold. intros j s' Hj. unfold frob_step.
  eapply agree_mget; eauto; [lia|lia|]. cbv zeta. rewrite (H i j) by lia.
  destruct (reqb _ _); [apply agree_ret|]. destruct (rltb _ _); apply agree_ret.
Qed.
Lemma agree_inf_norm : forall init, agree (matrix_inf_norm M X init) (matrix_inf_norm M2 Y init).
Proof.
  intros init. unfold matrix_inf_norm. start. apply agree_fold. intros i s Hi. apply agree_bind; [|intros; apply agree_ret].
  apply agree_fold. intros j s' Hj. eapply agree_mget; eauto; [lia|lia|]. rewrite (H i j) by lia. apply agree_ret.
Qed.
Lemma agree_one_norm : forall init, agree (matrix_one_norm M X init) (matrix_one_norm M2 Y init).
Proof.
  intros init. unfold matrix_one_norm. start. apply agree_fold. intros j s Hj. apply agree_bind; [|intros; apply agree_ret].
  apply agree_fold. intros i s' Hi. eapply agree_mget; eauto; [lia|lia|]. rewrite (H i j) by lia. apply agree_ret.
Qed.
End Mat.
End Pf.

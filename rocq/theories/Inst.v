(** Concrete element types and concrete memories, used only by the examples beside the theorems. *)
From Coq Require Import List Arith ZArith Lia Bool QArith Qcanon.
From Verif Require Import Mem Scalar View Spec Wp.
Import ListNotations.
Set Implicit Arguments.

(** * Integers *)
Definition zops : ops := Ops 0%Z 1%Z Z.add Z.sub Z.mul Z.div (fun x => x) (fun x => x).
Lemma zring : ring_laws zops.
Proof. constructor; [constructor|..]; cbn -[Z.mul Z.add Z.sub Qcplus Qcmult Qcminus Qcdiv]; intros; ring. Qed.
Lemma zcomm : mul_commutes zops.
Proof. cbv [mul_commutes]; cbn -[Z.mul Z.add Z.sub Qcplus Qcmult Qcminus Qcdiv]; intros; ring. Qed.

(** * Gaussian integers (complex numbers with integer parts); division is not used *)
Definition gmul (x y : Z * Z) : Z * Z :=
  (fst x * fst y - snd x * snd y, fst x * snd y + snd x * fst y)%Z.
Definition gops : ops :=
  Ops (0, 0)%Z (1, 0)%Z
    (fun x y => (fst x + fst y, snd x + snd y)%Z) (fun x y => (fst x - fst y, snd x - snd y)%Z)
    gmul (fun x _ => x) (fun x => (fst x, - snd x)%Z) (fun x => (fst x, 0)%Z).
Ltac gsolve := intros; repeat match goal with x : car gops |- _ => destruct x as [? ?] end;
  unfold gmul; cbn -[Z.mul Z.add Z.sub Z.opp]; apply injective_projections; cbn -[Z.mul Z.add Z.sub Z.opp]; ring.
Lemma gring : ring_laws gops.
Proof. constructor; [constructor|..]; gsolve. Qed.
Lemma gconj : conj_laws gops.
Proof.
  constructor; try gsolve. intros [a b] H; simpl in *. inversion H. f_equal; lia.
Qed.
Lemma gcomm : mul_commutes gops.
Proof. unfold mul_commutes. gsolve. Qed.
Lemma gcc : forall v : gops, conj (conj v) = v.
Proof. exact (conj_conj gconj). Qed.

(** * 2x2 integer matrices: a non-commutative ring *)
Definition m2 := (Z * Z * (Z * Z))%type.
Definition m2mul (x y : m2) : m2 :=
  let '((a, b), (c, d)) := x in let '((e, f), (g, h)) := y in
  ((a * e + b * g, a * f + b * h), (c * e + d * g, c * f + d * h))%Z.
Definition m2map2 (op : Z -> Z -> Z) (x y : m2) : m2 :=
  let '((a, b), (c, d)) := x in let '((e, f), (g, h)) := y in ((op a e, op b f), (op c g, op d h)).
Definition m2ops : ops :=
  Ops ((0, 0), (0, 0))%Z ((1, 0), (0, 1))%Z (m2map2 Z.add) (m2map2 Z.sub) m2mul (fun x _ => x)
    (fun x => let '((a, b), (c, d)) := x in ((a, c), (b, d))) (fun x => x).
Lemma m2ring : ring_laws m2ops.
Proof.
  constructor; [constructor|..]; intros;
  repeat match goal with x : car m2ops |- _ => destruct x as [[? ?] [? ?]] end; cbn -[Z.mul Z.add Z.sub];
  repeat apply injective_projections; cbn -[Z.mul Z.add Z.sub]; ring.
Qed.

(** * Rational numbers: a field *)
Definition qops : ops := Ops 0%Qc 1%Qc Qcplus Qcminus Qcmult Qcdiv (fun x => x) (fun x => x).
Lemma qring : ring_laws qops.
Proof. constructor; [constructor|..]; cbn -[Z.mul Z.add Z.sub Qcplus Qcmult Qcminus Qcdiv]; intros; ring. Qed.
Lemma qdiv : div_laws qops.
Proof. constructor; cbn; intros; field; auto. Qed.
Lemma qcomm : mul_commutes qops.
Proof. cbv [mul_commutes]; cbn -[Z.mul Z.add Z.sub Qcplus Qcmult Qcminus Qcdiv]; intros; ring. Qed.

(** * Concrete memories and views *)
(** Cells 0, 1, ... hold the elements of [l]; all other cells are unallocated. *)
Definition mem_of {T} (l : list T) : mem T := fun a => nth_error l a.
Definition vec_at {O : ops} (base n : nat) : vec O := Vec base n (fun i => i) ADefault.
Definition row_major {O : ops} (base r c : nat) : mat O := Mat base r c LRight ADefault.
Definition col_major {O : ops} (base r c : nat) : mat O := Mat base r c LLeft ADefault.
(** Element functions given by lists (the default is only reached outside the range). *)
Definition velt {O : ops} (l : list O) (i : nat) : O := nth i l zero.
Definition melt {O : ops} (l : list (list O)) (i j : nat) : O := nth j (nth i l []) zero.

Definition idx1 (n : nat) := seq 0 n.
Definition idx2 (r c : nat) := list_prod (seq 0 r) (seq 0 c).

Lemma vec_holds_c : forall (O : ops) (m : mem O) x f,
  Forall (fun i => exists v, m (vaddr x i) = Some v /\ acc_read (vacc x) v = f i) (idx1 (vext x)) ->
  vec_holds m x f.
Proof. intros O m x f H i Hi. rewrite Forall_forall in H. apply H, in_seq; lia. Qed.
Lemma mat_holds_on_c : forall (O : ops) (m : mem O) A (P : nat -> nat -> Prop) f,
  Forall (fun ij => P (fst ij) (snd ij) -> exists v, m (maddr A (fst ij) (snd ij)) = Some v /\
            acc_read (macc A) v = f (fst ij) (snd ij)) (idx2 (ext0 A) (ext1 A)) ->
  mat_holds_on m A P f.
Proof.
  intros O m A P f H i j Hi Hj HP. rewrite Forall_forall in H. apply (H (i, j)); auto.
  apply in_prod; apply in_seq; lia.
Qed.
Definition inj_b {I} (eqb : I -> I -> bool) (l : list I) (f : I -> nat) : bool :=
  forallb (fun i => forallb (fun j => negb (f i =? f j) || eqb i j) l) l.
Definition eqb2 (p q : nat * nat) : bool := (fst p =? fst q) && (snd p =? snd q).
Lemma vwritable_c : forall (O : ops) (x : vec O), vacc x = ADefault ->
  inj_b Nat.eqb (idx1 (vext x)) (vaddr x) = true -> vwritable x.
Proof.
  intros O x Hd H; split; auto. intros i j Hi Hj E. unfold inj_b in H. rewrite forallb_forall in H.
  assert (In i (idx1 (vext x))) as Hi' by (apply in_seq; lia).
  assert (In j (idx1 (vext x))) as Hj' by (apply in_seq; lia).
  specialize (H i Hi'). rewrite forallb_forall in H. specialize (H j Hj').
  rewrite E, Nat.eqb_refl in H. simpl in H. apply Nat.eqb_eq; auto.
Qed.
Lemma mwritable_on_c : forall (O : ops) (A : mat O) (P : nat -> nat -> Prop), macc A = ADefault ->
  inj_b eqb2 (idx2 (ext0 A) (ext1 A)) (fun p => maddr A (fst p) (snd p)) = true -> mwritable_on A P.
Proof.
  intros O A P Hd H; split; auto. intros i j i' j' Hi Hj Hi' Hj' _ _ E. unfold inj_b in H. rewrite forallb_forall in H.
  assert (In (i, j) (idx2 (ext0 A) (ext1 A))) as K by (apply in_prod; apply in_seq; lia).
  assert (In (i', j') (idx2 (ext0 A) (ext1 A))) as K' by (apply in_prod; apply in_seq; lia).
  specialize (H _ K). rewrite forallb_forall in H. specialize (H _ K'). simpl in H.
  rewrite E, Nat.eqb_refl in H. simpl in H. apply andb_prop in H. destruct H as [H1 H2].
  simpl in *. apply Nat.eqb_eq in H1, H2. auto.
Qed.
Definition vlist {O} (x : vec O) := map (vaddr x) (idx1 (vext x)).
Definition mlist {O} (A : mat O) := map (fun p => maddr A (fst p) (snd p)) (idx2 (ext0 A) (ext1 A)).
Lemma vcells_list : forall O (x : vec O) a, vcells x a -> In a (vlist x).
Proof. intros O x a (i & Hi & ->). apply in_map, in_seq; lia. Qed.
Lemma mcells_list : forall O (A : mat O) P a, mcells_on A P a -> In a (mlist A).
Proof.
  intros O A P a (i & j & Hi & Hj & _ & ->). unfold mlist.
  apply (in_map (fun p => maddr A (fst p) (snd p)) (idx2 (ext0 A) (ext1 A)) (i, j)).
  apply in_prod; apply in_seq; lia.
Qed.
Definition disj_b (l1 l2 : list nat) : bool := forallb (fun a => negb (existsb (Nat.eqb a) l2)) l1.
Lemma disj_c : forall (S1 S2 : cellset) l1 l2, (forall a, S1 a -> In a l1) -> (forall a, S2 a -> In a l2) ->
  disj_b l1 l2 = true -> disjoint S1 S2.
Proof.
  intros S1 S2 l1 l2 H1 H2 H a Ha1 Ha2. unfold disj_b in H. rewrite forallb_forall in H.
  specialize (H a (H1 a Ha1)). apply negb_true_iff in H.
  assert (existsb (Nat.eqb a) l2 = true) as K; [|congruence].
  apply existsb_exists. exists a; split; auto. apply Nat.eqb_refl.
Qed.
Lemma alloc_c : forall T (m : mem T) (S : cellset) l, (forall a, S a -> In a l) ->
  forallb (fun a => match m a with Some _ => true | None => false end) l = true -> allocated m S.
Proof.
  intros T m S l H1 H a Ha E. rewrite forallb_forall in H. specialize (H a (H1 a Ha)). rewrite E in H. discriminate.
Qed.

(** Discharge the side conditions of a theorem on concrete data. *)
Ltac concrete1 :=
  match goal with
  | |- vec_holds _ _ _ => apply vec_holds_c; cbn -[Nat.ltb Nat.leb]; repeat (apply Forall_cons; [eexists; split; reflexivity|]); apply Forall_nil
  | |- mat_holds _ _ _ => apply mat_holds_on_c; cbn -[Nat.ltb Nat.leb]; repeat (apply Forall_cons; [intros _; eexists; split; reflexivity|]); apply Forall_nil
  | |- mat_holds_on _ _ _ _ => apply mat_holds_on_c; cbn -[Nat.ltb Nat.leb];
       repeat (apply Forall_cons; [let H := fresh in intros H; unfold stored, in_tri, all2 in H; cbn in H;
                 first [ (exfalso; (lia || (destruct H as [? H]; apply H; reflexivity || fail))) | eexists; split; reflexivity ]|]); apply Forall_nil
  | |- vwritable _ => apply vwritable_c; reflexivity
  | |- mwritable _ => apply mwritable_on_c; reflexivity
  | |- mwritable_on _ _ => apply mwritable_on_c; reflexivity
  | |- disjoint (vcells _) (vcells _) => eapply disj_c; [apply vcells_list | apply vcells_list | reflexivity]
  | |- disjoint (vcells _) (mcells _) => eapply disj_c; [apply vcells_list | apply mcells_list | reflexivity]
  | |- disjoint (vcells _) (mcells_on _ _) => eapply disj_c; [apply vcells_list | apply mcells_list | reflexivity]
  | |- disjoint (mcells _) (vcells _) => eapply disj_c; [apply mcells_list | apply vcells_list | reflexivity]
  | |- disjoint (mcells_on _ _) (vcells _) => eapply disj_c; [apply mcells_list | apply vcells_list | reflexivity]
  | |- disjoint (mcells _) (mcells _) => eapply disj_c; [apply mcells_list | apply mcells_list | reflexivity]
  | |- disjoint (mcells_on _ _) (mcells _) => eapply disj_c; [apply mcells_list | apply mcells_list | reflexivity]
  | |- disjoint (mcells _) (mcells_on _ _) => eapply disj_c; [apply mcells_list | apply mcells_list | reflexivity]
  | |- disjoint (mcells_on _ _) (mcells_on _ _) => eapply disj_c; [apply mcells_list | apply mcells_list | reflexivity]
  | |- allocated _ (vcells _) => eapply alloc_c; [apply vcells_list | reflexivity]
  | |- allocated _ (mcells _) => eapply alloc_c; [apply mcells_list | reflexivity]
  | |- allocated _ (mcells_on _ _) => eapply alloc_c; [apply mcells_list | reflexivity]
  | |- disjoint_or_aligned_v ?x ?x => right; intros ? ?; reflexivity
  | |- disjoint_or_aligned_m ?x ?x => right; intros ? ? ? ?; reflexivity
  | |- disjoint_or_aligned_v _ _ => left
  | |- disjoint_or_aligned_m _ _ => left
  | |- _ = _ => reflexivity
  end.
Ltac concrete := repeat concrete1.

Notation zv := (@velt zops). Notation zm := (@melt zops).
Notation gv := (@velt gops). Notation gm := (@melt gops).
Notation qv := (@velt qops). Notation qm := (@melt qops).
Notation m2v := (@velt m2ops). Notation m2m := (@melt m2ops).

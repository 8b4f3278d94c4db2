(** Proofs for the Kokkos traversals and rank updates. *)
From Coq Require Import List Arith Lia Bool.
From Verif Require Import Mem Scalar View Spec Wp Loops Sums Blas2 PfBlas2 PfRank Blas3 PfBlas3 Par PfPar KK SpecK.
Import ListNotations.
Set Implicit Arguments.
Local Open Scope sc_scope.
Local Open Scope prog_scope.

Section Trav.
Context {O : ops}.

(** Actions that each own one cell, one after the other. *)
Lemma seq_actions : forall n (act : nat -> prog O unit) (addr : nat -> nat) (R : nat -> cellset) (val : nat -> O) m,
  (forall k, k < n -> touches (fun a => R k a \/ a = addr k) (fun a => a = addr k) (act k)) ->
  (forall k k', k < n -> k' < n -> k' <> k -> ~ R k (addr k') /\ addr k' <> addr k) ->
  (forall k, k < n -> succeeds (act k) m (fun _ f => f (addr k) = Some (val k))) ->
  succeeds (for_range 0 n act) m (fun _ f => forall k, k < n -> f (addr k) = Some (val k)).
Proof.
  intros n act addr R val m Ht Hsep Hs.
  apply wp_for_range with (I := fun k m' => (forall k', k' < k -> m' (addr k') = Some (val k')) /\
     (forall a, (forall k', k' < k -> a <> addr k') -> m' a = m a)); try lia.
  - split; intros; auto; lia.
  - intros k m' Hk (I1 & I2).
    pose proof (touches_within _ _ (Ht k (proj2 Hk)) (Hs k (proj2 Hk))) as Hw.
    apply within_agree with (m' := m') in Hw.
    + apply within_changes in Hw.
      assert (S : forall A (p : prog O A) R' W' m1 Q, within R' W' p m1 Q -> succeeds p m1 Q).
      { clear. intros A p R' W'. induction p as [x | a c IH | a v c IH | e]; simpl; intros m1 Q H.
        - exists x, m1; auto.
        - destruct H as (_ & v & Hv & H). destruct (IH _ _ _ H) as (x & m2 & Hr & HQ). exists x, m2. simpl. rewrite Hv. auto.
        - destruct H as (_ & Hv & H). destruct (IH _ _ H) as (x & m2 & Hr & HQ). exists x, m2. simpl.
          destruct (m1 a); [auto|congruence].
        - tauto. }
      apply S in Hw. eapply wp_conseq; [exact Hw|]. intros [] m'' ((f & Hf & _ & HW) & Hc). split.
      * intros k' Hk'. destruct (Nat.eq_dec k' k) as [->|Hne].
        { rewrite HW by auto. auto. }
        { rewrite Hc. { apply I1; lia. } destruct (Hsep k k'); auto; lia. }
      * intros a Ha. rewrite Hc; [|apply Ha; lia]. apply I2. intros k' Hk'; apply Ha; lia.
    + intros a [Ha | -> ].
      * apply I2. intros k' Hk' ->. destruct (Hsep k k'); auto; lia.
      * apply I2. intros k' Hk' E. destruct (Hsep k k'); auto; lia.
    + intros a ->. apply I2. intros k' Hk' E. destruct (Hsep k k'); auto; lia.
  - intros m' (I1 & _) k Hk. auto.
Qed.

(** One task per line; line [t] visits [pos t k] for k < len t. *)
Lemma region_lines : forall (C : mat O) (P : nat -> nat -> Prop) Rin (action : nat -> nat -> prog O unit) g m (Q : mem O -> Prop)
    (n : nat) (len : nat -> nat) (r c own : nat -> nat -> nat),
  mwritable_on C P -> elementwise C P Rin action ->
  (forall t k, t < n -> k < len t -> r t k < ext0 C /\ c t k < ext1 C /\ P (r t k) (c t k) /\ own (r t k) (c t k) = t) ->
  (forall t k k', t < n -> k < len t -> k' < len t -> r t k = r t k' -> c t k = c t k' -> k = k') ->
  (forall i j, i < ext0 C -> j < ext1 C -> P i j -> own i j < n /\
     exists k, k < len (own i j) /\ r (own i j) k = i /\ c (own i j) k = j) ->
  (forall i j, i < ext0 C -> j < ext1 C -> P i j -> succeeds (action i j) m (fun _ f => f (maddr C i j) = Some (g i j))) ->
  (forall m', mst m m' C P g -> Q m') ->
  region_ok (tasks n (fun t => for_range 0 (len t) (fun k => action (r t k) (c t k)))) m Q.
Proof.
  intros C P Rin action g m Q n len r c own Hw He Hin Hinj Hcov Hs HQ.
  apply region_mat with (C := C) (P := P) (g := g) (own := own)
    (R := fun t a => exists k, k < len t /\ (Rin (r t k) (c t k) a \/ a = maddr C (r t k) (c t k))); auto.
  - intros i j Hi Hj HP. apply Hcov; auto.
  - intros t i j Ht Hi Hj HP Hne (k & Hk & H). destruct (Hin t k) as (Hr & Hc & HPk & Ho); auto.
    assert (D : (i, j) <> (r t k, c t k)) by (intros E; injection E as -> ->; congruence).
    destruct H as [H|H].
    + destruct (He _ _ Hr Hc HPk) as (_ & Hd). apply (Hd i j Hi Hj HP D H).
    + apply D. destruct Hw as [_ Hu]. destruct (Hu i j (r t k) (c t k)) as [-> ->]; auto.
  - intros t Ht. apply touches_for_range. intros k Hk. destruct (Hin t k) as (Hr & Hc & HP & Ho); auto; try lia.
    destruct (He _ _ Hr Hc HP) as (Hf & _). eapply touches_mono; [| |exact Hf].
    + intros a [H|H]; exists k; split; auto; lia.
    + intros a ->. exists (r t k), (c t k). auto.
  - intros t Ht. eapply wp_conseq.
    + apply seq_actions with (addr := fun k => maddr C (r t k) (c t k)) (R := fun k => Rin (r t k) (c t k))
        (val := fun k => g (r t k) (c t k)).
      * intros k Hk. destruct (Hin t k) as (Hr & Hc & HP & Ho); auto. apply He; auto.
      * intros k k' Hk Hk' Hne. destruct (Hin t k) as (Hr & Hc & HP & Ho); auto.
        destruct (Hin t k') as (Hr' & Hc' & HP' & Ho'); auto. destruct (He _ _ Hr Hc HP) as (_ & Hd).
        assert (D : (r t k', c t k') <> (r t k, c t k)).
        { intros E; injection E as E1 E2. apply Hne. apply Hinj with t; auto. }
        split; [apply Hd; auto|]. intros E. apply D. destruct Hw as [_ Hu].
        destruct (Hu _ _ _ _ Hr' Hc' Hr Hc HP' HP E) as [-> ->]. auto.
      * intros k Hk. destruct (Hin t k) as (Hr & Hc & HP & Ho); auto.
    + intros [] f Hf i j Hi Hj (HP & Ho). destruct (Hcov i j Hi Hj HP) as (_ & k & Hk & E1 & E2).
      rewrite Ho in *. exists (g i j). destruct Hw as [Hd _]. rewrite Hd; simpl. split; auto.
      specialize (Hf k Hk). simpl in Hf. rewrite E1, E2 in Hf. exact Hf.
Qed.

Lemma for_each_matrix_element_ok : forall (C : mat O) Rin action g m (Q : mem O -> Prop),
  mwritable C -> elementwise C all2 Rin action ->
  (forall i j, i < ext0 C -> j < ext1 C -> succeeds (action i j) m (fun _ f => f (maddr C i j) = Some (g i j))) ->
  (forall m', mst m m' C all2 g -> Q m') ->
  par_succeeds (for_each_matrix_element C action) m Q.
Proof.
  intros C Rin action g m Q Hw He Hs HQ. unfold for_each_matrix_element.
  destruct (ext1 C <? ext0 C); simpl.
  - apply region_lines with (C := C) (P := all2) (Rin := Rin) (g := g) (len := fun _ => ext1 C)
      (r := fun t _ => t) (c := fun _ k => k) (own := fun i _ => i) (action := action); auto.
    + intros; repeat split; auto.
    + intros i j Hi Hj _. split; auto. exists j; auto.
  - apply region_lines with (C := C) (P := all2) (Rin := Rin) (g := g) (len := fun _ => ext0 C)
      (r := fun _ k => k) (c := fun t _ => t) (own := fun _ j => j) (action := action); auto.
    + intros; repeat split; auto.
    + intros i j Hi Hj _. split; auto. exists i; auto.
Qed.

Lemma for_each_triangle_ok : forall (C : mat O) t Rin action g m (Q : mem O -> Prop),
  ext0 C = ext1 C -> mwritable_on C (in_tri t) -> elementwise C (in_tri t) Rin action ->
  (forall i j, i < ext0 C -> j < ext1 C -> in_tri t i j ->
     succeeds (action i j) m (fun _ f => f (maddr C i j) = Some (g i j))) ->
  (forall m', mst m m' C (in_tri t) g -> Q m') ->
  par_succeeds (for_each_triangle_matrix_element C t action) m Q.
Proof.
  intros C t Rin action g m Q Hsq Hw He Hs HQ. destruct t; simpl.
  - apply region_lines with (C := C) (P := in_tri Lower) (Rin := Rin) (g := g) (len := fun j => (j + 1)%nat)
      (r := fun t _ => t) (c := fun _ k => k) (own := fun i _ => i) (action := action); auto.
    + intros; simpl; repeat split; auto; lia.
    + intros i j Hi Hj H. simpl in *. split; [lia|]. exists j; repeat split; auto; lia.
  - apply region_lines with (C := C) (P := in_tri Upper) (Rin := Rin) (g := g) (len := fun j => (j + 1)%nat)
      (r := fun _ k => k) (c := fun t _ => t) (own := fun _ j => j) (action := action); auto.
    + intros; simpl; repeat split; auto; lia.
    + intros i j Hi Hj H. simpl in *. split; auto. exists i; repeat split; auto; lia.
Qed.
End Trav.

(** * Views of plain mdspans *)
Section Views.
Context {O : ops}.

Lemma view_m_plain : forall (A : mat O) k, plain_m A -> view_m A k = k A.
Proof. intros [b e0 e1 l c] k [H1 H2]. simpl in *. subst c. unfold view_m; simpl. destruct H2; subst; auto. Qed.
Lemma view_v_holds : forall (m : mem O) x f, plain_v x -> vec_holds m x f -> vec_holds m (view_v x) f.
Proof.
  intros m x f [Ha Hx] H i Hi. destruct (H i Hi) as (v & Hv & E). rewrite Ha in E. exists v. split; auto.
  unfold vaddr, view_v in *; simpl in *. rewrite Hx in Hv by auto. auto.
Qed.
Lemma view_v_cells : forall (x : vec O) a, plain_v x -> vcells (view_v x) a <-> vcells x a.
Proof.
  intros x a [_ Hx]. unfold vcells, vaddr, view_v; simpl. split; intros (i & Hi & ->); exists i; split; auto;
  rewrite Hx; auto.
Qed.
Lemma view_v_cells_to : forall (x : vec O) a, plain_v x -> vcells (view_v x) a -> vcells x a.
Proof. intros x a H. apply (view_v_cells a H). Qed.
Lemma view_v_addr : forall (x : vec O) i, plain_v x -> i < vext x -> vaddr (view_v x) i = vaddr x i.
Proof. intros x i [_ Hx] Hi. unfold vaddr, view_v; simpl. rewrite Hx; auto. Qed.
Lemma view_v_disjoint : forall (x : vec O) S, plain_v x -> disjoint (vcells x) S -> disjoint (vcells (view_v x)) S.
Proof. intros x S Hp Hd a Ha. apply Hd. apply view_v_cells; auto. Qed.
Lemma view_v_writable : forall (x : vec O), vwritable (view_v x).
Proof. intros x. split; auto. intros i j _ _. unfold vaddr, view_v; simpl. lia. Qed.

Lemma vcells_in : forall (x : vec O) i, i < vext x -> vcells x (vaddr x i).
Proof. intros x i H. exists i; auto. Qed.
Lemma mcells_in : forall (A : mat O) (P : nat -> nat -> Prop) i j, i < ext0 A -> j < ext1 A -> P i j -> mcells_on A P (maddr A i j).
Proof. intros A P i j H1 H2 H3. exists i, j; auto. Qed.
Lemma mcells_in_all : forall (A : mat O) i j, i < ext0 A -> j < ext1 A -> mcells A (maddr A i j).
Proof. intros A i j H1 H2. exists i, j; repeat split; auto. Qed.

Lemma mst_cell : forall (m0 m : mem O) C (P : nat -> nat -> Prop) h i j, macc C = ADefault -> mst m0 m C P h ->
  i < ext0 C -> j < ext1 C -> P i j -> m (maddr C i j) = Some (h i j).
Proof.
  intros m0 m C P h i j Hd [H _] Hi Hj HP. destruct (H i j Hi Hj HP) as (v & Hv & E). rewrite Hd in E; simpl in E. congruence.
Qed.
Lemma check_eq_pass : forall n m (p : par O), n = m -> check_eq n m p = p.
Proof. intros n m p ->. unfold check_eq. rewrite Nat.eqb_refl. auto. Qed.

(** Two runs that end with the same contents of the output end in the same memory. *)
Lemma bounded_dec : forall n (Q : nat -> Prop), (forall i, i < n -> Q i \/ ~ Q i) ->
  (exists i, i < n /\ Q i) \/ ~ (exists i, i < n /\ Q i).
Proof.
  induction n as [|n IH]; intros Q H.
  - right. intros (i & Hi & _). lia.
  - destruct (IH Q) as [(i & Hi & HQ)|Hn].
    + intros; apply H; lia.
    + left. exists i; split; auto.
    + destruct (H n) as [Hq|Hq]; auto.
      * left. exists n; auto.
      * right. intros (i & Hi & HQ). destruct (Nat.eq_dec i n) as [->|]; auto. apply Hn. exists i; split; auto. lia.
Qed.
Lemma mcells_dec : forall (A : mat O) (P : nat -> nat -> Prop) a, (forall i j, P i j \/ ~ P i j) ->
  mcells_on A P a \/ ~ mcells_on A P a.
Proof.
  intros A P a HP.
  destruct (@bounded_dec (ext0 A) (fun i => exists j, j < ext1 A /\ (P i j /\ a = maddr A i j))) as [H|H].
  - intros i _. apply bounded_dec. intros j _. destruct (HP i j); destruct (Nat.eq_dec a (maddr A i j)); tauto.
  - left. destruct H as (i & Hi & j & Hj & H & E). exists i, j; auto.
  - right. intros (i & j & Hi & Hj & H' & E). apply H. exists i. split; auto. exists j; auto.
Qed.
Lemma vcells_dec : forall (x : vec O) a, vcells x a \/ ~ vcells x a.
Proof. intros x a. apply bounded_dec. intros i _. destruct (Nat.eq_dec a (vaddr x i)); auto. Qed.
Lemma in_tri_dec : forall t i j, in_tri t i j \/ ~ in_tri t i j.
Proof. intros [] i j; simpl; lia. Qed.
Lemma all2_dec : forall i j, all2 i j \/ ~ all2 i j.
Proof. left. exact I. Qed.

Lemma mst_same : forall (m m1 m2 : mem O) C (P : nat -> nat -> Prop) g, (forall i j, P i j \/ ~ P i j) ->
  macc C = ADefault -> mst m m1 C P g -> mst m m2 C P g -> same_memory m1 m2.
Proof.
  intros m m1 m2 C P g HP Hd H1 H2 a. destruct (@mcells_dec C P a HP) as [(i & j & Hi & Hj & H & ->)|H].
  - rewrite (mst_cell Hd H1), (mst_cell Hd H2); auto.
  - destruct H1 as [_ H1]; destruct H2 as [_ H2]. rewrite H1, H2; auto.
Qed.
Lemma vst_same : forall (m m1 m2 : mem O) z g, vacc z = ADefault -> vst m m1 z g -> vst m m2 z g -> same_memory m1 m2.
Proof.
  intros m m1 m2 z g Hd [H1 C1] [H2 C2] a. destruct (vcells_dec z a) as [(i & Hi & ->)|H].
  - destruct (H1 i Hi) as (v1 & E1 & F1). destruct (H2 i Hi) as (v2 & E2 & F2). rewrite Hd in *. simpl in *. congruence.
  - rewrite C1, C2; auto.
Qed.

Lemma par_same_mst : forall (m : mem O) C (P : nat -> nat -> Prop) g p q, (forall i j, P i j \/ ~ P i j) ->
  macc C = ADefault ->
  succeeds q m (fun _ m' => mat_holds_on m' C P g /\ changes_only m m' (mcells_on C P)) ->
  (forall Q : mem O -> Prop, (forall m', mst m m' C P g -> Q m') -> par_succeeds p m Q) ->
  par_same_as p q m.
Proof.
  intros m C P g p q HP Hd Hq Hp. apply Hp. intros m' Hm'. eapply wp_conseq; [exact Hq|].
  intros [] m'' H. eapply mst_same; eauto. 
Qed.
Lemma par_same_vst : forall (m : mem O) z g p q,
  vacc z = ADefault ->
  succeeds q m (fun _ m' => vec_holds m' z g /\ changes_only m m' (vcells z)) ->
  (forall Q : mem O -> Prop, (forall m', vst m m' z g -> Q m') -> par_succeeds p m Q) ->
  par_same_as p q m.
Proof.
  intros m z g p q Hd Hq Hp. apply Hp. intros m' Hm'. eapply wp_conseq; [exact Hq|].
  intros [] m'' H. eapply vst_same; eauto. 
Qed.
End Views.

Ltac tch := repeat first
  [ apply touches_bind; [|intros ?] | apply touches_vget; intros | apply touches_mget; intros
  | apply touches_mset; intros | apply touches_vset; intros | apply touches_for_range; intros
  | apply touches_fold_range; intros | exact I ];
  cbv beta; try reflexivity; try (right; reflexivity); try (left; left; first [apply vcells_in | apply mcells_in_all]; assumption);
  try (left; right; first [apply vcells_in | apply mcells_in_all]; assumption);
  try (left; first [apply vcells_in | apply mcells_in_all]; assumption).
Ltac plain := repeat (rewrite check_eq_pass by lia); repeat (rewrite view_m_plain by assumption).
Ltac vgv X := apply wp_bind; eapply wp_vget with (x := view_v X);
  [eapply view_v_holds; eassumption | simpl; lia |].

Ltac mg M := apply wp_bind; eapply wp_mget_in with (A := M); [eassumption|eassumption|eassumption|lia|lia|exact I|].

Section Ranks.
Context {O : ops}.

Lemma kk_ger_mst : forall (m : mem O) x y A a f g (Q : mem O -> Prop),
  vext x = ext0 A -> vext y = ext1 A -> plain_v x -> plain_v y -> plain_m A ->
  mat_holds m A a -> vec_holds m x f -> vec_holds m y g -> mwritable A ->
  disjoint (vcells x) (mcells A) -> disjoint (vcells y) (mcells A) ->
  (forall m', mst m m' A all2 (fun i j => a i j + f i * g j) -> Q m') ->
  par_succeeds (kk_matrix_rank_1_update x y A) m Q.
Proof.
  intros m x y A a f g Q Hx Hy Px Py PA HA Hf Hg Hw Hdx Hdy HQ. unfold kk_matrix_rank_1_update. plain.
  apply for_each_matrix_element_ok with (g := fun i j => a i j + f i * g j)
    (Rin := fun _ _ b => vcells (view_v x) b \/ vcells (view_v y) b); auto.
  - intros i j Hi Hj _. split; [unfold macc_add; tch|].
    intros i' j' Hi' Hj' _ _ [H|H]; apply view_v_cells_to in H; auto.
    + eapply Hdx; eauto. apply mcells_in_all; auto.
    + eapply Hdy; eauto. apply mcells_in_all; auto.
  - intros i j Hi Hj. vgv x. vgv y.
    eapply wp_macc_add; [exact Hw|apply mst_init; exact HA|auto|auto|exact I|].
    intros m' Hm'. rewrite (mst_cell (proj1 Hw) Hm'); auto; [|exact I]. rewrite fset2_same. auto.
Qed.
Lemma kk_gerc_mst : forall (m : mem O) x y A a f g (Q : mem O -> Prop),
  vext x = ext0 A -> vext y = ext1 A -> plain_v x -> plain_v y -> plain_m A ->
  mat_holds m A a -> vec_holds m x f -> vec_holds m y g -> mwritable A ->
  disjoint (vcells x) (mcells A) -> disjoint (vcells y) (mcells A) ->
  (forall m', mst m m' A all2 (fun i j => a i j + f i * conj (g j)) -> Q m') ->
  par_succeeds (kk_matrix_rank_1_update_conj x y A) m Q.
Proof.
  intros m x y A a f g Q Hx Hy Px Py PA HA Hf Hg Hw Hdx Hdy HQ. unfold kk_matrix_rank_1_update_conj. plain.
  apply for_each_matrix_element_ok with (g := fun i j => a i j + f i * conj (g j))
    (Rin := fun _ _ b => vcells (view_v x) b \/ vcells (view_v y) b); auto.
  - intros i j Hi Hj _. split; [unfold macc_add; tch|].
    intros i' j' Hi' Hj' _ _ [H|H]; apply view_v_cells_to in H; auto.
    + eapply Hdx; eauto. apply mcells_in_all; auto.
    + eapply Hdy; eauto. apply mcells_in_all; auto.
  - intros i j Hi Hj. vgv x. vgv y.
    eapply wp_macc_add; [exact Hw|apply mst_init; exact HA|auto|auto|exact I|].
    intros m' Hm'. rewrite (mst_cell (proj1 Hw) Hm'); auto; [|exact I]. rewrite fset2_same. auto.
Qed.
Lemma kk_syr_mst : forall (m : mem O) x A t a f (Q : mem O -> Prop),
  ext0 A = ext1 A -> vext x = ext0 A -> plain_v x -> plain_m A ->
  mat_holds_on m A (in_tri t) a -> vec_holds m x f -> mwritable_on A (in_tri t) ->
  disjoint (vcells x) (mcells_on A (in_tri t)) ->
  (forall m', mst m m' A (in_tri t) (fun i j => a i j + f i * f j) -> Q m') ->
  par_succeeds (kk_symmetric_matrix_rank_1_update x A t) m Q.
Proof.
  intros m x A t a f Q Hsq Hx Px PA HA Hf Hw Hdx HQ. unfold kk_symmetric_matrix_rank_1_update. plain.
  apply for_each_triangle_ok with (g := fun i j => a i j + f i * f j)
    (Rin := fun _ _ b => vcells (view_v x) b); auto.
  - intros i j Hi Hj Ht. split; [unfold macc_add; tch|].
    intros i' j' Hi' Hj' Ht' _ H; apply view_v_cells_to in H; auto.
    eapply Hdx; eauto. apply mcells_in; auto.
  - intros i j Hi Hj Ht. vgv x. vgv x.
    eapply wp_macc_add; [exact Hw|apply mst_init; exact HA|auto|auto|exact Ht|].
    intros m' Hm'. rewrite (mst_cell (proj1 Hw) Hm'); auto. rewrite fset2_same. auto.
Qed.
Lemma kk_her_mst : forall (m : mem O) x A t a f (Q : mem O -> Prop),
  ext0 A = ext1 A -> vext x = ext0 A -> plain_v x -> plain_m A ->
  mat_holds_on m A (in_tri t) a -> vec_holds m x f -> mwritable_on A (in_tri t) ->
  disjoint (vcells x) (mcells_on A (in_tri t)) ->
  (forall m', mst m m' A (in_tri t) (fun i j => a i j + f i * conj (f j)) -> Q m') ->
  par_succeeds (kk_hermitian_matrix_rank_1_update x A t) m Q.
Proof.
  intros m x A t a f Q Hsq Hx Px PA HA Hf Hw Hdx HQ. unfold kk_hermitian_matrix_rank_1_update. plain.
  apply for_each_triangle_ok with (g := fun i j => a i j + f i * conj (f j))
    (Rin := fun _ _ b => vcells (view_v x) b); auto.
  - intros i j Hi Hj Ht. split; [unfold macc_add; tch|].
    intros i' j' Hi' Hj' Ht' _ H; apply view_v_cells_to in H; auto.
    eapply Hdx; eauto. apply mcells_in; auto.
  - intros i j Hi Hj Ht. vgv x. vgv x.
    eapply wp_macc_add; [exact Hw|apply mst_init; exact HA|auto|auto|exact Ht|].
    intros m' Hm'. rewrite (mst_cell (proj1 Hw) Hm'); auto. rewrite fset2_same. auto.
Qed.
Lemma kk_syr2_mst : forall (m : mem O) x y A t a f g (Q : mem O -> Prop),
  ext0 A = ext1 A -> vext x = ext0 A -> vext y = ext0 A -> plain_v x -> plain_v y -> plain_m A ->
  mat_holds_on m A (in_tri t) a -> vec_holds m x f -> vec_holds m y g -> mwritable_on A (in_tri t) ->
  disjoint (vcells x) (mcells_on A (in_tri t)) -> disjoint (vcells y) (mcells_on A (in_tri t)) ->
  (forall m', mst m m' A (in_tri t) (fun i j => a i j + (f i * g j + g i * f j)) -> Q m') ->
  par_succeeds (kk_symmetric_matrix_rank_2_update x y A t) m Q.
Proof.
  intros m x y A t a f g Q Hsq Hx Hy Px Py PA HA Hf Hg Hw Hdx Hdy HQ. unfold kk_symmetric_matrix_rank_2_update. plain.
  apply for_each_triangle_ok with (g := fun i j => a i j + (f i * g j + g i * f j))
    (Rin := fun _ _ b => vcells (view_v x) b \/ vcells (view_v y) b); auto.
  - intros i j Hi Hj Ht. split; [unfold macc_add; tch|].
    intros i' j' Hi' Hj' Ht' _ [H|H]; apply view_v_cells_to in H; auto.
    + eapply Hdx; eauto. apply mcells_in; auto.
    + eapply Hdy; eauto. apply mcells_in; auto.
  - intros i j Hi Hj Ht. vgv x. vgv y. vgv y. vgv x.
    eapply wp_macc_add; [exact Hw|apply mst_init; exact HA|auto|auto|exact Ht|].
    intros m' Hm'. rewrite (mst_cell (proj1 Hw) Hm'); auto. rewrite fset2_same. auto.
Qed.
Lemma kk_her2_mst : forall (m : mem O) x y A t a f g (Q : mem O -> Prop),
  ext0 A = ext1 A -> vext x = ext0 A -> vext y = ext0 A -> plain_v x -> plain_v y -> plain_m A ->
  mat_holds_on m A (in_tri t) a -> vec_holds m x f -> vec_holds m y g -> mwritable_on A (in_tri t) ->
  disjoint (vcells x) (mcells_on A (in_tri t)) -> disjoint (vcells y) (mcells_on A (in_tri t)) ->
  (forall m', mst m m' A (in_tri t) (fun i j => a i j + (f i * conj (g j) + g i * conj (f j))) -> Q m') ->
  par_succeeds (kk_hermitian_matrix_rank_2_update x y A t) m Q.
Proof.
  intros m x y A t a f g Q Hsq Hx Hy Px Py PA HA Hf Hg Hw Hdx Hdy HQ. unfold kk_hermitian_matrix_rank_2_update. plain.
  apply for_each_triangle_ok with (g := fun i j => a i j + (f i * conj (g j) + g i * conj (f j)))
    (Rin := fun _ _ b => vcells (view_v x) b \/ vcells (view_v y) b); auto.
  - intros i j Hi Hj Ht. split; [unfold macc_add; tch|].
    intros i' j' Hi' Hj' Ht' _ [H|H]; apply view_v_cells_to in H; auto.
    + eapply Hdx; eauto. apply mcells_in; auto.
    + eapply Hdy; eauto. apply mcells_in; auto.
  - intros i j Hi Hj Ht. vgv x. vgv y. vgv y. vgv x.
    eapply wp_macc_add; [exact Hw|apply mst_init; exact HA|auto|auto|exact Ht|].
    intros m' Hm'. rewrite (mst_cell (proj1 Hw) Hm'); auto. rewrite fset2_same. auto.
Qed.
Lemma kk_syrk_mst : forall (m : mem O) alpha A C t a c (Q : mem O -> Prop),
  ext0 C = ext1 C -> ext0 A = ext0 C -> plain_m A -> plain_m C ->
  mat_holds m A a -> mat_holds_on m C (in_tri t) c -> mwritable_on C (in_tri t) ->
  disjoint (mcells A) (mcells_on C (in_tri t)) ->
  (forall m', mst m m' C (in_tri t) (fun i j => sum_from (c i j) 0 (ext1 A) (fun k => alpha * a i k * a j k)) -> Q m') ->
  par_succeeds (kk_symmetric_matrix_rank_k_update alpha A C t) m Q.
Proof.
  intros m alpha A C t a c Q Hsq HAC PA PC HA HC Hw HdA HQ. unfold kk_symmetric_matrix_rank_k_update. plain.
  apply for_each_triangle_ok with (g := fun i j => sum_from (c i j) 0 (ext1 A) (fun k => alpha * a i k * a j k))
    (Rin := fun _ _ b => mcells A b); auto.
  - intros i j Hi Hj Ht. split; [unfold macc_add; tch|].
    intros i' j' Hi' Hj' Ht' _ H. eapply HdA; eauto. apply mcells_in; auto.
  - intros i j Hi Hj Ht. eapply wp_conseq.
    + apply wp_acc_m with (m0 := m) (C := C) (P := in_tri t) (g := c) (i := i) (j := j) (lo := 0) (hi := ext1 A)
        (e := fun k => alpha * a i k * a j k); auto using mst_init; try lia.
      intros k m2 g' Q' Hk Hst2 HQ'. mg A. mg A. eapply wp_macc_add; eauto.
    + intros [] m' Hm'. rewrite (mst_cell (proj1 Hw) Hm'); auto. rewrite fset2_same, Nat.sub_0_r. auto.
Qed.
Lemma kk_herk_mst : forall (m : mem O) alpha A C t a c (Q : mem O -> Prop),
  ext0 C = ext1 C -> ext0 A = ext0 C -> plain_m A -> plain_m C ->
  mat_holds m A a -> mat_holds_on m C (in_tri t) c -> mwritable_on C (in_tri t) ->
  disjoint (mcells A) (mcells_on C (in_tri t)) ->
  (forall m', mst m m' C (in_tri t) (fun i j => sum_from (c i j) 0 (ext1 A) (fun k => alpha * a i k * conj (a j k))) -> Q m') ->
  par_succeeds (kk_hermitian_matrix_rank_k_update alpha A C t) m Q.
Proof.
  intros m alpha A C t a c Q Hsq HAC PA PC HA HC Hw HdA HQ. unfold kk_hermitian_matrix_rank_k_update. plain.
  apply for_each_triangle_ok with (g := fun i j => sum_from (c i j) 0 (ext1 A) (fun k => alpha * a i k * conj (a j k)))
    (Rin := fun _ _ b => mcells A b); auto.
  - intros i j Hi Hj Ht. split; [unfold macc_add; tch|].
    intros i' j' Hi' Hj' Ht' _ H. eapply HdA; eauto. apply mcells_in; auto.
  - intros i j Hi Hj Ht. eapply wp_conseq.
    + apply wp_acc_m with (m0 := m) (C := C) (P := in_tri t) (g := c) (i := i) (j := j) (lo := 0) (hi := ext1 A)
        (e := fun k => alpha * a i k * conj (a j k)); auto using mst_init; try lia.
      intros k m2 g' Q' Hk Hst2 HQ'. mg A. mg A. eapply wp_macc_add; eauto.
    + intros [] m' Hm'. rewrite (mst_cell (proj1 Hw) Hm'); auto. rewrite fset2_same, Nat.sub_0_r. auto.
Qed.
Lemma kk_syr2k_mst : forall (m : mem O) A B C t a b c (Q : mem O -> Prop),
  ext0 C = ext1 C -> ext0 A = ext0 C -> ext0 B = ext0 C -> ext1 B = ext1 A -> plain_m A -> plain_m B -> plain_m C ->
  mat_holds m A a -> mat_holds m B b -> mat_holds_on m C (in_tri t) c -> mwritable_on C (in_tri t) ->
  disjoint (mcells A) (mcells_on C (in_tri t)) -> disjoint (mcells B) (mcells_on C (in_tri t)) ->
  (forall m', mst m m' C (in_tri t) (fun i j => sum_from (c i j) 0 (ext1 A) (fun k => a i k * b j k + b i k * a j k)) -> Q m') ->
  par_succeeds (kk_symmetric_matrix_rank_2k_update A B C t) m Q.
Proof.
  intros m A B C t a b c Q Hsq HAC HBC HBA PA PB PC HA HB HC Hw HdA HdB HQ. unfold kk_symmetric_matrix_rank_2k_update. plain.
  apply for_each_triangle_ok with (g := fun i j => sum_from (c i j) 0 (ext1 A) (fun k => a i k * b j k + b i k * a j k))
    (Rin := fun _ _ b => mcells A b \/ mcells B b); auto.
  - intros i j Hi Hj Ht. split; [unfold macc_add; tch|].
    intros i' j' Hi' Hj' Ht' _ [H|H].
    + eapply HdA; eauto. apply mcells_in; auto.
    + eapply HdB; eauto. apply mcells_in; auto.
  - intros i j Hi Hj Ht. eapply wp_conseq.
    + apply wp_acc_m with (m0 := m) (C := C) (P := in_tri t) (g := c) (i := i) (j := j) (lo := 0) (hi := ext1 A)
        (e := fun k => a i k * b j k + b i k * a j k); auto using mst_init; try lia.
      intros k m2 g' Q' Hk Hst2 HQ'. mg A. mg B. mg B. mg A. eapply wp_macc_add; eauto.
    + intros [] m' Hm'. rewrite (mst_cell (proj1 Hw) Hm'); auto. rewrite fset2_same, Nat.sub_0_r. auto.
Qed.
Lemma kk_her2k_mst : forall (m : mem O) A B C t a b c (Q : mem O -> Prop),
  ext0 C = ext1 C -> ext0 A = ext0 C -> ext0 B = ext0 C -> ext1 B = ext1 A -> plain_m A -> plain_m B -> plain_m C ->
  mat_holds m A a -> mat_holds m B b -> mat_holds_on m C (in_tri t) c -> mwritable_on C (in_tri t) ->
  disjoint (mcells A) (mcells_on C (in_tri t)) -> disjoint (mcells B) (mcells_on C (in_tri t)) ->
  (forall m', mst m m' C (in_tri t) (fun i j => sum_from (c i j) 0 (ext1 A) (fun k => a i k * conj (b j k) + b i k * conj (a j k))) -> Q m') ->
  par_succeeds (kk_hermitian_matrix_rank_2k_update A B C t) m Q.
Proof.
  intros m A B C t a b c Q Hsq HAC HBC HBA PA PB PC HA HB HC Hw HdA HdB HQ. unfold kk_hermitian_matrix_rank_2k_update. plain.
  apply for_each_triangle_ok with (g := fun i j => sum_from (c i j) 0 (ext1 A) (fun k => a i k * conj (b j k) + b i k * conj (a j k)))
    (Rin := fun _ _ b => mcells A b \/ mcells B b); auto.
  - intros i j Hi Hj Ht. split; [unfold macc_add; tch|].
    intros i' j' Hi' Hj' Ht' _ [H|H].
    + eapply HdA; eauto. apply mcells_in; auto.
    + eapply HdB; eauto. apply mcells_in; auto.
  - intros i j Hi Hj Ht. eapply wp_conseq.
    + apply wp_acc_m with (m0 := m) (C := C) (P := in_tri t) (g := c) (i := i) (j := j) (lo := 0) (hi := ext1 A)
        (e := fun k => a i k * conj (b j k) + b i k * conj (a j k)); auto using mst_init; try lia.
      intros k m2 g' Q' Hk Hst2 HQ'. mg A. mg B. mg B. mg A. eapply wp_macc_add; eauto.
    + intros [] m' Hm'. rewrite (mst_cell (proj1 Hw) Hm'); auto. rewrite fset2_same, Nat.sub_0_r. auto.
Qed.
End Ranks.

(** Proofs for the Kokkos matrix-matrix products. *)
From Coq Require Import List Arith Lia Bool Relations.
From Verif Require Import Mem Scalar View Spec Wp Loops Sums Blas2 PfBlas1 PfBlas2 PfTrmv PfBlas2b PfRank PfBlas3 Par PfPar KK SpecK PfKK PfKK2.
Import ListNotations.
Set Implicit Arguments.
Local Open Scope sc_scope.
Local Open Scope prog_scope.

Section ParRules.
Variable T : Type.
Lemma region_mono : forall ts (m : mem T) (Q Q' : mem T -> Prop), region_ok ts m Q -> (forall m', Q m' -> Q' m') -> region_ok ts m Q'.
Proof.
  intros ts m Q Q' H HQ ts' m' Hr. destruct (H ts' m' Hr) as (H1 & H2 & H3). split; [|split]; auto.
Qed.
Lemma par_mono : forall (p : par T) m (Q Q' : mem T -> Prop), par_succeeds p m Q -> (forall m', Q m' -> Q' m') -> par_succeeds p m Q'.
Proof.
  induction p as [ | | |n body k IH]; intros m Q Q' H HQ; simpl in *; auto.
  eapply region_mono; [exact H|]. intros m1 Hm1. simpl in Hm1. eapply IH; [exact Hm1|exact HQ].
Qed.
Lemma par_seq_ok : forall (p q : par T) m (Q : mem T -> Prop),
  par_succeeds p m (fun m' => par_succeeds q m' Q) -> par_succeeds (par_seq p q) m Q.
Proof.
  induction p as [ | | |n body k IH]; intros q m Q H; simpl in *; auto; try contradiction.
  eapply region_mono; [exact H|]. intros m' Hm'. apply IH. auto.
Qed.
Lemma par_for_ok : forall (Inv : nat -> mem T -> Prop) (body : nat -> par T) n lo m (Q : mem T -> Prop),
  Inv lo m -> (forall i m', lo <= i < (lo + n)%nat -> Inv i m' -> par_succeeds (body i) m' (Inv (S i))) ->
  (forall m', Inv (lo + n)%nat m' -> Q m') -> par_succeeds (par_for lo n body) m Q.
Proof.
  intros Inv body n. induction n as [|n IH]; intros lo m Q H0 Hb HQ; simpl.
  - apply HQ. rewrite Nat.add_0_r. auto.
  - apply par_seq_ok. eapply par_mono; [apply Hb; [lia|exact H0]|]. intros m' Hm'. apply IH; auto.
    + intros i m2 Hi H2. apply Hb; auto; lia.
    + intros m2 H2. apply HQ. replace (lo + S n)%nat with (S lo + n)%nat by lia. auto.
Qed.
End ParRules.

Section MM.
Context {O : ops}.

Lemma kk_product_mst : forall (m : mem O) A B init C (PA : nat -> nat -> Prop) (el : nat -> nat -> nat -> O) (e : nat -> nat -> O) update (Q : mem O -> Prop),
  plain_m A -> plain_m B -> plain_m C -> mwritable C -> allocated m (mcells C) ->
  match init with
  | None => forall i j, e i j = zero
  | Some E => plain_m E /\ mat_holds m E e /\ ext0 E = ext0 C /\ ext1 E = ext1 C /\ disjoint_or_aligned_m E C
  end ->
  (forall i j k, i < ext0 C -> j < ext1 C -> k < ext1 A ->
     touches (fun b => mcells_on A PA b \/ mcells B b) (fun _ => False) (update A B i j k)) ->
  (forall i j k m' g (P : O -> mem O -> Prop), i < ext0 C -> j < ext1 C -> k < ext1 A -> mst m m' C all2 g ->
     P (el i j k) m' -> succeeds (update A B i j k) m' P) ->
  disjoint (mcells_on A PA) (mcells C) -> disjoint (mcells B) (mcells C) ->
  (forall m', mst m m' C all2 (fun i j => sum_from (e i j) 0 (ext1 A) (el i j)) -> Q m') ->
  par_succeeds (kk_product A B init C update) m Q.
Proof.
  intros m A B init C PA el e update Q HPA HPB HPC Hw Hal Hin Ht Hs HdA HdB HQ.
  pose proof (alloc_mat_holds Hal) as H0.
  assert (Hrun : forall i j (first : prog O unit), i < ext0 C -> j < ext1 C ->
    succeeds first m (fun _ m' => mst m m' C all2 (fset2 (contents_m m C) i j (e i j))) ->
    succeeds (first ;; for_range 0 (ext1 A) (fun k => let! e := update A B i j k in macc_add C i j e)) m
      (fun _ f => f (maddr C i j) = Some (sum_from (e i j) 0 (ext1 A) (el i j)))).
  { intros i j first Hi Hj Hf. apply wp_bind. eapply wp_conseq; [exact Hf|]. intros [] m1 H1. eapply wp_conseq.
    - apply wp_acc_m with (m0 := m) (C := C) (P := all2) (g := fset2 (contents_m m C) i j (e i j)) (i := i) (j := j)
        (lo := 0) (hi := ext1 A) (e := el i j); auto; try lia.
      intros k m2 g' Q' Hk Hst2 HQ'. apply wp_bind. eapply Hs; eauto; try lia. eapply wp_macc_add; eauto. exact I.
    - intros [] m2 H2. rewrite (mst_cell (proj1 Hw) H2 Hi Hj); [|exact I]. rewrite !fset2_same, Nat.sub_0_r. auto. }
  unfold kk_product. destruct init as [E|]; plain.
  - destruct Hin as (PE & HE & He0 & He1 & Hal'). plain.
    apply for_each_matrix_element_ok with (g := fun i j => sum_from (e i j) 0 (ext1 A) (el i j))
      (Rin := fun i j b => (mcells_on A PA b \/ mcells B b) \/ b = maddr E i j); auto.
    + intros i j Hi Hj _. split.
      * apply touches_bind; [apply touches_bind; [apply touches_mget; intros; auto|intros w; apply touches_mset; auto]|].
        intros []. apply touches_for_range. intros k Hk. apply touches_bind.
        -- apply touches_mono with (R := fun b => mcells_on A PA b \/ mcells B b) (W := fun _ => False);
           [cbv beta; tauto|cbv beta; tauto|]. apply Ht; lia.
        -- intros w. unfold macc_add. tch.
      * intros i' j' Hi' Hj' _ Hne [[H|H]|H].
        -- eapply HdA; eauto. apply mcells_in_all; auto.
        -- eapply HdB; eauto. apply mcells_in_all; auto.
        -- destruct Hal' as [Hd|Hag].
           ++ apply (Hd (maddr C i' j')); [rewrite H; apply mcells_in_all; lia|apply mcells_in_all; auto].
           ++ rewrite Hag in H by auto. apply Hne. destruct (proj2 Hw i' j' i j) as [-> ->]; auto; exact I.
    + intros i j Hi Hj. apply Hrun; auto. apply wp_bind.
      eapply wp_mget; [exact HE|lia|lia|exact I|]. eapply wp_mset; [exact Hw|apply mst_init; exact H0|auto|auto|exact I|auto].
  - plain. apply for_each_matrix_element_ok with (g := fun i j => sum_from (e i j) 0 (ext1 A) (el i j))
      (Rin := fun i j b => mcells_on A PA b \/ mcells B b); auto.
    + intros i j Hi Hj _. split.
      * apply touches_bind; [apply touches_mset; auto|].
        intros []. apply touches_for_range. intros k Hk. apply touches_bind.
        -- apply touches_mono with (R := fun b => mcells_on A PA b \/ mcells B b) (W := fun _ => False);
           [cbv beta; tauto|cbv beta; tauto|]. apply Ht; lia.
        -- intros w. unfold macc_add. tch.
      * intros i' j' Hi' Hj' _ Hne [H|H].
        -- eapply HdA; eauto. apply mcells_in_all; auto.
        -- eapply HdB; eauto. apply mcells_in_all; auto.
    + intros i j Hi Hj. apply Hrun; auto.
      eapply wp_mset; [exact Hw|apply mst_init; exact H0|auto|auto|exact I|]. rewrite Hin. auto.
Qed.

(** The element of the matrix as the Kokkos products see it: [fc] is also applied to the diagonal. *)
Definition fc_el (fc : O -> O) (t : triangle) (a : nat -> nat -> O) (i j : nat) : O :=
  if i =? j then fc (a i i) else if in_tri_b t i j then a i j else fc (a j i).

Lemma left_term_touches : forall fc t (A B : mat O) i j k, ext0 A = ext1 A -> ext1 A = ext0 B ->
  i < ext0 A -> j < ext1 B -> k < ext1 A ->
  touches (fun b => mcells_on A (in_tri t) b \/ mcells B b) (fun _ => False) (kk_left_term fc t A B i j k).
Proof.
  intros fc t A B i j k Hsq HB Hi Hj Hk. unfold kk_left_term.
  apply touches_bind; [|intros w; apply touches_bind; [|intros; exact I]].
  - destruct t.
    + destruct (Nat.leb_spec i k).
      * apply touches_bind; [|intros; exact I]. apply touches_mget. intros. left. apply mcells_in; simpl; lia.
      * apply touches_mget. intros. left. apply mcells_in; simpl; lia.
    + destruct (Nat.leb_spec k i).
      * apply touches_bind; [|intros; exact I]. apply touches_mget. intros. left. apply mcells_in; simpl; lia.
      * apply touches_mget. intros. left. apply mcells_in; simpl; lia.
  - apply touches_mget. intros. right. apply mcells_in_all; lia.
Qed.
Lemma left_term_runs : forall fc t (A B C : mat O) a b i j k (m m' : mem O) g (P : O -> mem O -> Prop),
  ext0 A = ext1 A -> ext1 A = ext0 B -> i < ext0 A -> j < ext1 B -> k < ext1 A ->
  mat_holds_on m A (in_tri t) a -> mat_holds m B b ->
  disjoint (mcells_on A (in_tri t)) (mcells C) -> disjoint (mcells B) (mcells C) -> mst m m' C all2 g ->
  P (fc_el fc t a i k * b k j) m' -> succeeds (kk_left_term fc t A B i j k) m' P.
Proof.
  intros fc t A B C a b i j k m m' g P Hsq HB Hi Hj Hk HA Hb HdA HdB Hst HP. unfold kk_left_term.
  assert (HmA : mat_holds_on m' A (in_tri t) a) by (eapply mat_holds_frame; [exact HA|apply Hst|exact HdA]).
  assert (HmB : mat_holds m' B b) by (eapply mat_holds_frame; [exact Hb|apply Hst|exact HdB]).
  apply wp_bind.
  assert (forall R : O -> mem O -> Prop, R (fc_el fc t a i k) m' ->
    succeeds (if match t with Lower => i <=? k | Upper => k <=? i end
              then let! v := mget A k i in Ret (fc v) else mget A i k) m' R) as Hr.
  { intros R HR. unfold fc_el in HR. destruct t; simpl in HR.
    - destruct (Nat.leb_spec i k).
      + apply wp_bind. eapply wp_mget; [exact HmA|lia|lia|simpl; lia|]. apply wp_ret.
        destruct (Nat.eqb_spec i k); [subst; auto|]. destruct (Nat.leb_spec k i); [lia|auto].
      + eapply wp_mget; [exact HmA|lia|lia|simpl; lia|].
        destruct (Nat.eqb_spec i k); [lia|]. destruct (Nat.leb_spec k i); [auto|lia].
    - destruct (Nat.leb_spec k i).
      + apply wp_bind. eapply wp_mget; [exact HmA|lia|lia|simpl; lia|]. apply wp_ret.
        destruct (Nat.eqb_spec i k); [subst; auto|]. destruct (Nat.leb_spec i k); [lia|auto].
      + eapply wp_mget; [exact HmA|lia|lia|simpl; lia|].
        destruct (Nat.eqb_spec i k); [lia|]. destruct (Nat.leb_spec i k); [auto|lia]. }
  apply Hr. apply wp_bind. eapply wp_mget; [exact HmB|lia|lia|exact I|]. apply wp_ret. auto.
Qed.
Lemma right_term_touches : forall fc t (A B : mat O) i j k, ext0 A = ext1 A -> ext1 B = ext0 A ->
  i < ext0 B -> j < ext1 A -> k < ext1 A ->
  touches (fun b => mcells_on A (in_tri t) b \/ mcells B b) (fun _ => False) (kk_right_term fc t B A B i j k).
Proof.
  intros fc t A B i j k Hsq HB Hi Hj Hk. unfold kk_right_term.
  apply touches_bind; [|intros w; apply touches_bind; [|intros; exact I]].
  - destruct t.
    + destruct (Nat.leb_spec k j).
      * apply touches_bind; [|intros; exact I]. apply touches_mget. intros. left. apply mcells_in; simpl; lia.
      * apply touches_mget. intros. left. apply mcells_in; simpl; lia.
    + destruct (Nat.leb_spec j k).
      * apply touches_bind; [|intros; exact I]. apply touches_mget. intros. left. apply mcells_in; simpl; lia.
      * apply touches_mget. intros. left. apply mcells_in; simpl; lia.
  - apply touches_mget. intros. right. apply mcells_in_all; lia.
Qed.
Lemma right_term_runs : forall fc t (A B C : mat O) a b i j k (m m' : mem O) g (P : O -> mem O -> Prop),
  ext0 A = ext1 A -> ext1 B = ext0 A -> i < ext0 B -> j < ext1 A -> k < ext1 A ->
  mat_holds_on m A (in_tri t) a -> mat_holds m B b ->
  disjoint (mcells_on A (in_tri t)) (mcells C) -> disjoint (mcells B) (mcells C) -> mst m m' C all2 g ->
  P (b i k * fc_el fc t a k j) m' -> succeeds (kk_right_term fc t B A B i j k) m' P.
Proof.
  intros fc t A B C a b i j k m m' g P Hsq HB Hi Hj Hk HA Hb HdA HdB Hst HP. unfold kk_right_term.
  assert (HmA : mat_holds_on m' A (in_tri t) a) by (eapply mat_holds_frame; [exact HA|apply Hst|exact HdA]).
  assert (HmB : mat_holds m' B b) by (eapply mat_holds_frame; [exact Hb|apply Hst|exact HdB]).
  apply wp_bind.
  assert (forall R : O -> mem O -> Prop, R (fc_el fc t a k j) m' ->
    succeeds (if match t with Lower => k <=? j | Upper => j <=? k end
              then let! v := mget A j k in Ret (fc v) else mget A k j) m' R) as Hr.
  { intros R HR. unfold fc_el in HR. destruct t; simpl in HR.
    - destruct (Nat.leb_spec k j).
      + apply wp_bind. eapply wp_mget; [exact HmA|lia|lia|simpl; lia|]. apply wp_ret.
        destruct (Nat.eqb_spec k j); [subst; auto|]. destruct (Nat.leb_spec j k); [lia|auto].
      + eapply wp_mget; [exact HmA|lia|lia|simpl; lia|].
        destruct (Nat.eqb_spec k j); [lia|]. destruct (Nat.leb_spec j k); [auto|lia].
    - destruct (Nat.leb_spec j k).
      + apply wp_bind. eapply wp_mget; [exact HmA|lia|lia|simpl; lia|]. apply wp_ret.
        destruct (Nat.eqb_spec k j); [subst; auto|]. destruct (Nat.leb_spec k j); [lia|auto].
      + eapply wp_mget; [exact HmA|lia|lia|simpl; lia|].
        destruct (Nat.eqb_spec k j); [lia|]. destruct (Nat.leb_spec k j); [auto|lia]. }
  apply Hr. apply wp_bind. eapply wp_mget; [exact HmB|lia|lia|exact I|]. apply wp_ret. auto.
Qed.

Lemma kk_left_mst : forall (m : mem O) fc A t B C a b (Q : mem O -> Prop),
  ext0 A = ext1 A -> ext0 C = ext0 A -> ext1 A = ext0 B -> ext1 C = ext1 B -> plain_m A -> plain_m B -> plain_m C ->
  mat_holds_on m A (in_tri t) a -> mat_holds m B b -> mwritable C -> allocated m (mcells C) ->
  disjoint (mcells_on A (in_tri t)) (mcells C) -> disjoint (mcells B) (mcells C) ->
  (forall m', mst m m' C all2 (fun i j => bigsum (ext1 A) (fun k => fc_el fc t a i k * b k j)) -> Q m') ->
  par_succeeds (kk_sy_he_left fc A t B C) m Q.
Proof.
  intros m fc A t B C a b Q Hsq H1 H2 H3 PA PB PC HA HB Hw Hal HdA HdB HQ. unfold kk_sy_he_left, check_left. plain.
  eapply kk_product_mst with (PA := in_tri t) (e := fun _ _ => zero) (el := fun i j k => fc_el fc t a i k * b k j); eauto.
  - intros i j k Hi Hj Hk. apply left_term_touches; auto; lia.
  - intros i j k m' g P Hi Hj Hk Hst HP. eapply left_term_runs; eauto; lia.
Qed.
Lemma kk_left_upd_mst : forall (m : mem O) fc A t B E C a b e (Q : mem O -> Prop),
  ext0 A = ext1 A -> ext0 C = ext0 A -> ext1 A = ext0 B -> ext1 C = ext1 B -> ext0 E = ext0 C -> ext1 E = ext1 C ->
  plain_m A -> plain_m B -> plain_m E -> plain_m C ->
  mat_holds_on m A (in_tri t) a -> mat_holds m B b -> mat_holds m E e -> mwritable C -> allocated m (mcells C) ->
  disjoint (mcells_on A (in_tri t)) (mcells C) -> disjoint (mcells B) (mcells C) -> disjoint_or_aligned_m E C ->
  (forall m', mst m m' C all2 (fun i j => sum_from (e i j) 0 (ext1 A) (fun k => fc_el fc t a i k * b k j)) -> Q m') ->
  par_succeeds (kk_sy_he_left_upd fc A t B E C) m Q.
Proof.
  intros m fc A t B E C a b e Q Hsq H1 H2 H3 H4 H5 PA PB PE PC HA HB HE Hw Hal HdA HdB HdE HQ.
  unfold kk_sy_he_left_upd, check_left, check_E. plain.
  eapply kk_product_mst with (PA := in_tri t) (e := e) (el := fun i j k => fc_el fc t a i k * b k j); eauto; simpl; auto.
  - intros i j k Hi Hj Hk. apply left_term_touches; auto; lia.
  - intros i j k m' g P Hi Hj Hk Hst HP. eapply left_term_runs; eauto; lia.
Qed.
Lemma kk_right_mst : forall (m : mem O) fc A t B C a b (Q : mem O -> Prop),
  ext0 A = ext1 A -> ext0 C = ext0 B -> ext1 B = ext0 A -> ext1 C = ext1 A -> plain_m A -> plain_m B -> plain_m C ->
  mat_holds_on m A (in_tri t) a -> mat_holds m B b -> mwritable C -> allocated m (mcells C) ->
  disjoint (mcells_on A (in_tri t)) (mcells C) -> disjoint (mcells B) (mcells C) ->
  (forall m', mst m m' C all2 (fun i j => bigsum (ext1 A) (fun k => b i k * fc_el fc t a k j)) -> Q m') ->
  par_succeeds (kk_sy_he_right fc A t B C) m Q.
Proof.
  intros m fc A t B C a b Q Hsq H1 H2 H3 PA PB PC HA HB Hw Hal HdA HdB HQ. unfold kk_sy_he_right, check_right. plain.
  eapply kk_product_mst with (PA := in_tri t) (e := fun _ _ => zero) (el := fun i j k => b i k * fc_el fc t a k j); eauto.
  - intros i j k Hi Hj Hk. apply right_term_touches; auto; lia.
  - intros i j k m' g P Hi Hj Hk Hst HP. eapply right_term_runs; eauto; lia.
Qed.
Lemma kk_right_upd_mst : forall (m : mem O) fc A t B E C a b e (Q : mem O -> Prop),
  ext0 A = ext1 A -> ext0 C = ext0 B -> ext1 B = ext0 A -> ext1 C = ext1 A -> ext0 E = ext0 C -> ext1 E = ext1 C ->
  plain_m A -> plain_m B -> plain_m E -> plain_m C ->
  mat_holds_on m A (in_tri t) a -> mat_holds m B b -> mat_holds m E e -> mwritable C -> allocated m (mcells C) ->
  disjoint (mcells_on A (in_tri t)) (mcells C) -> disjoint (mcells B) (mcells C) -> disjoint_or_aligned_m E C ->
  (forall m', mst m m' C all2 (fun i j => sum_from (e i j) 0 (ext1 A) (fun k => b i k * fc_el fc t a k j)) -> Q m') ->
  par_succeeds (kk_product A B (Some E) C (kk_right_term fc t B)) m Q.
Proof.
  intros m fc A t B E C a b e Q Hsq H1 H2 H3 H4 H5 PA PB PE PC HA HB HE Hw Hal HdA HdB HdE HQ.
  eapply kk_product_mst with (PA := in_tri t) (e := e) (el := fun i j k => b i k * fc_el fc t a k j); eauto; simpl; auto.
  - intros i j k Hi Hj Hk. apply right_term_touches; auto; lia.
  - intros i j k m' g P Hi Hj Hk Hst HP. eapply right_term_runs; eauto; lia.
Qed.
End MM.

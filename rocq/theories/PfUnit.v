(** Sums of products and solves preserve graded relations. *)
From Coq Require Import List Arith ZArith Lia Bool.
From Verif Require Import Mem Scalar View Spec SpecSub SpecInp SpecMono SpecUnit Idx Wp Loops Sums Blas1 Blas2 Blas3
  PfBlas1 PfBlas2 PfTrmv PfTrsv PfRank PfBlas3 PfTrsm PfSub PfInplace PfMono.
Import ListNotations.
Set Implicit Arguments.
Local Open Scope sc_scope.

Section Help.
Context {O : ops} (lA lX lR : O -> O -> Prop) (H : graded O lA lX lR).
Lemma fold_gr : forall l (s1 s2 : O) (f1 f2 : nat -> O), lR s1 s2 -> (forall k, In k l -> lR (f1 k) (f2 k)) ->
  lR (fold_left (fun s k => s + f1 k) l s1) (fold_left (fun s k => s + f2 k) l s2).
Proof. induction l as [|j l IH]; simpl; auto. intros. apply IH; auto. apply (gr_add H); auto. Qed.
Lemma sum_gr : forall (s1 s2 : O) lo n1 n2 f1 f2, n1 = n2 -> lR s1 s2 -> (forall k, lo <= k < lo + n1 -> lR (f1 k) (f2 k)) ->
  lR (sum_from s1 lo n1 f1) (sum_from s2 lo n2 f2).
Proof. intros; subst. unfold sum_from. apply fold_gr; auto. intros k Hk. apply in_seq in Hk. auto. Qed.
Lemma big_gr : forall n1 n2 (f1 f2 : nat -> O), n1 = n2 -> (forall k, k < n1 -> lR (f1 k) (f2 k)) -> lR (bigsum n1 f1) (bigsum n2 f2).
Proof. intros. apply sum_gr; auto. apply (gr_zero H). intros; apply H1; lia. Qed.
Lemma added_gr : forall l1 l2 (s1 s2 : O) f1 f2, l1 = l2 -> lR s1 s2 -> (forall k, In k l1 -> lR (f1 k) (f2 k)) ->
  lR (added s1 l1 f1) (added s2 l2 f2).
Proof. intros; subst. unfold added. apply fold_gr; auto. Qed.
Lemma sym_gr : forall t (a1 a2 : nat -> nat -> O) i k, (forall i' k', (i' = i /\ k' = k) \/ (i' = k /\ k' = i) -> in_tri t i' k' -> lA (a1 i' k') (a2 i' k')) ->
  lA (sym_of t a1 i k) (sym_of t a2 i k).
Proof.
  intros t a1 a2 i k K. unfold sym_of, in_tri_b. destruct t; destruct (Nat.leb_spec i k), (Nat.leb_spec k i); apply K; simpl; auto; lia.
Qed.
Lemma herm_gr : forall t (a1 a2 : nat -> nat -> O) i k, (forall i' k', (i' = i /\ k' = k) \/ (i' = k /\ k' = i) -> in_tri t i' k' -> lA (a1 i' k') (a2 i' k')) ->
  lA (herm_of t a1 i k) (herm_of t a2 i k).
Proof.
  intros t a1 a2 i k K. unfold herm_of, in_tri_b. destruct (Nat.eqb_spec i k) as [->|N].
  - apply (gr_re_a H). apply K; auto. destruct t; simpl; lia.
  - destruct t; destruct (Nat.leb_spec i k), (Nat.leb_spec k i); try lia; try apply (gr_conj_a H); apply K; simpl; auto; lia.
Qed.
Lemma herm_in_gr : forall t (a1 a2 : nat -> nat -> O) i k, in_tri t i k -> lR (a1 i k) (a2 i k) -> lR (herm_of t a1 i k) (herm_of t a2 i k).
Proof.
  intros t a1 a2 i k T K. unfold herm_of, in_tri_b. destruct (Nat.eqb_spec i k) as [->|N]; [apply (gr_re H); auto|].
  destruct t; simpl in T; destruct (Nat.leb_spec i k), (Nat.leb_spec k i); auto; lia.
Qed.
Lemma herm_raw_gr : forall t (a1 a2 : nat -> nat -> O) i k, (forall i' k', (i' = i /\ k' = k) \/ (i' = k /\ k' = i) -> in_tri t i' k' -> lA (a1 i' k') (a2 i' k')) ->
  lA (herm_raw t a1 i k) (herm_raw t a2 i k).
Proof.
  intros t a1 a2 i k K. unfold herm_raw, in_tri_b.
  destruct t; destruct (Nat.leb_spec i k), (Nat.leb_spec k i); try lia; try apply (gr_conj_a H); apply K; simpl; auto; lia.
Qed.
Lemma tri_term_gr : forall d (a1 a2 : nat -> nat -> O) f1 f2 i k, unit_ok d lX lR -> lX (f1 i) (f2 i) -> lX (f1 k) (f2 k) ->
  ((d = ImplicitUnit -> i <> k) -> lA (a1 i k) (a2 i k)) -> lR (tri_term d a1 f1 i k) (tri_term d a2 f2 i k).
Proof.
  intros d a1 a2 f1 f2 i k U F1 F2 A. unfold tri_term. destruct (Nat.eqb_spec i k) as [->|N]; [destruct d; [|apply U; auto]|];
  apply (gr_mul H); auto; apply A; auto; discriminate.
Qed.
Lemma tri_row_gr : forall s1 s2 t d n1 n2 (a1 a2 : nat -> nat -> O) f1 f2 i, unit_ok d lX lR -> n1 = n2 -> i < n1 -> lR s1 s2 ->
  (forall k, k < n1 -> lX (f1 k) (f2 k)) -> (forall k, k < n1 -> stored t d i k -> lA (a1 i k) (a2 i k)) ->
  lR (tri_row s1 t d n1 a1 f1 i) (tri_row s2 t d n2 a2 f2 i).
Proof.
  intros s1 s2 t d n1 n2 a1 a2 f1 f2 i U E Hi Hs Hf Ha. subst n2. unfold tri_row. destruct t; apply sum_gr; auto; intros k Hk;
  apply tri_term_gr; try apply Hf; try lia; auto; intros K; apply Ha; try lia; split; simpl; auto; lia.
Qed.
Lemma tri_elem_gr : forall t d n1 n2 i (e1 e2 : nat -> O) l1 l2, n1 = n2 -> i < n1 ->
  (forall k, k < n1 -> stored t d i k -> lR (e1 k) (e2 k)) -> (d = ImplicitUnit -> lR l1 l2) ->
  lR (tri_elem (is_lower t) d n1 i e1 l1) (tri_elem (is_lower t) d n2 i e2 l2).
Proof.
  intros t d n1 n2 i e1 e2 l1 l2 E Hi He Hl. subst n2. unfold tri_elem. destruct d; simpl; [|apply (gr_add H); auto];
  apply sum_gr; auto using (gr_zero H); intros k Hk; apply He; destruct t; simpl in *; try lia; split; simpl; try lia; try discriminate.
Qed.
Lemma diag_gr : forall d (p1 p2 o1 o2 : O), (d = Explicit -> lR p1 p2) -> (d = ImplicitUnit -> lR o1 o2) -> lR (times_diag d p1 o1) (times_diag d p2 o2).
Proof. intros. destruct d; simpl; auto. Qed.

(** substitution *)
Context (HD : graded_div O lA lX lR).
Lemma diffs_gr : forall (s1 s2 : O) lo n f1 f2, lR s1 s2 -> (forall k, lo <= k < lo + n -> lR (f1 k) (f2 k)) ->
  lR (diffs s1 lo n f1) (diffs s2 lo n f2).
Proof.
  intros s1 s2 lo n f1 f2 Hs Hf. unfold diffs. assert (K : forall k, In k (seq lo n) -> lR (f1 k) (f2 k)) by (intros k Hk; apply in_seq in Hk; auto).
  clear Hf. revert s1 s2 Hs K. induction (seq lo n) as [|j l IH]; simpl; auto. intros. apply IH; auto. apply (gr_sub HD); auto.
Qed.
Lemma ordered : forall t n (P : nat -> Prop), (forall i, i < n -> (forall k, sub_lo t i <= k < sub_lo t i + sub_len t n i -> P k) -> P i) ->
  forall i, i < n -> P i.
Proof.
  intros t n P K. destruct t; simpl in K.
  - intros i. induction i as [i IH] using (well_founded_induction lt_wf). intros Hi. apply K; auto. intros; apply IH; lia.
  - assert (Q : forall q i, n - i <= q -> i < n -> P i).
    { induction q; intros i Hq Hi; [lia|]. apply K; auto. intros; apply IHq; lia. }
    intros i Hi. apply (Q (n - i)%nat); auto.
Qed.
Lemma subst_gr : forall t d n1 n2 (a1 a2 : nat -> nat -> O) b1 b2 f1 f2, n1 = n2 -> unit_ok d lR lX ->
  (forall i k, i < n1 -> k < n1 -> stored t d i k -> lA (a1 i k) (a2 i k)) -> (forall i, i < n1 -> lR (b1 i) (b2 i)) ->
  (forall i, i < n1 -> f1 i = subst_value div t d n1 a1 b1 f1 i) -> (forall i, i < n2 -> f2 i = subst_value div t d n2 a2 b2 f2 i) ->
  forall i, i < n1 -> lX (f1 i) (f2 i).
Proof.
  intros t d n1 n2 a1 a2 b1 b2 f1 f2 E U Ha Hb H1 H2. subst n2. apply (ordered t). intros i Hi IH. rewrite H1, H2 by auto. unfold subst_value.
  assert (S : lR (diffs (b1 i) (sub_lo t i) (sub_len t n1 i) (fun j => a1 i j * f1 j)) (diffs (b2 i) (sub_lo t i) (sub_len t n1 i) (fun j => a2 i j * f2 j))).
  { apply diffs_gr; auto. intros k Hk. apply (gr_mul H); auto. apply Ha; auto; [destruct t; simpl in Hk; lia|]. split; destruct t; simpl in *; lia. }
  destruct d; [|apply U; auto]. apply (gr_div HD); auto. apply Ha; auto. split; [destruct t; simpl; lia|discriminate].
Qed.
Lemma subst_r_gr : forall t d n1 n2 (a1 a2 : nat -> nat -> O) b1 b2 f1 f2, n1 = n2 -> unit_ok d lR lX ->
  (forall i k, i < n1 -> k < n1 -> stored t d i k -> lA (a1 i k) (a2 i k)) -> (forall i, i < n1 -> lR (b1 i) (b2 i)) ->
  (forall i, i < n1 -> f1 i = subst_value_r t d n1 a1 b1 f1 i) -> (forall i, i < n2 -> f2 i = subst_value_r t d n2 a2 b2 f2 i) ->
  forall i, i < n1 -> lX (f1 i) (f2 i).
Proof.
  intros t d n1 n2 a1 a2 b1 b2 f1 f2 E U Ha Hb H1 H2. subst n2.
  apply (ordered (match t with Lower => Upper | Upper => Lower end)). intros i Hi IH. rewrite H1, H2 by auto. unfold subst_value_r.
  assert (S : lR (diffs (b1 i) (sub_lo (match t with Lower => Upper | Upper => Lower end) i) (sub_len (match t with Lower => Upper | Upper => Lower end) n1 i) (fun k => f1 k * a1 k i))
                 (diffs (b2 i) (sub_lo (match t with Lower => Upper | Upper => Lower end) i) (sub_len (match t with Lower => Upper | Upper => Lower end) n1 i) (fun k => f2 k * a2 k i))).
  { apply diffs_gr; auto. intros k Hk. apply (gr_mul_r H); auto. apply Ha; auto; [destruct t; simpl in Hk; lia|]. split; destruct t; simpl in *; lia. }
  destruct d; [|apply U; auto]. apply (gr_div HD); auto. apply Ha; auto. split; [destruct t; simpl; lia|discriminate].
Qed.
End Help.

Ltac gr H := first [assumption | apply (gr_zero H) | solve [apply (gr_add H); gr H] | solve [apply (gr_mul H); gr H] | solve [apply (gr_mul_r H); gr H]
  | solve [apply (gr_conj_a H); gr H] | solve [apply (gr_re_a H); gr H] | solve [apply (gr_conj_x H); gr H] | solve [apply (gr_re H); gr H]
  | apply (sum_gr H); [congruence || lia|gr H|intros; gr H] | apply (big_gr H); [congruence || lia|intros; gr H]
  | match goal with K : vec_le _ _ ?f ?g |- _ (?f _) (?g _) => apply K; lia end
  | match goal with K : mat_le _ _ _ ?f ?g |- _ (?f _ _) (?g _ _) => apply K; [lia|lia|first [exact I | assumption | lia | match goal with |- in_tri ?t _ _ => destruct t; simpl in *; lia end]] end
  | match goal with |- _ (if ?b then _ else _) _ => destruct b; gr H end
  | apply (sym_gr _); intros i' k' [[-> ->]|[-> ->]] ?; gr H
  | solve [apply (herm_in_gr H); gr H] | apply (herm_gr H); intros i' k' [[-> ->]|[-> ->]] ?; gr H
  | apply (herm_raw_gr H); intros i' k' [[-> ->]|[-> ->]] ?; gr H].
Ltac shapes := repeat match goal with K : same_shape _ _ |- _ => destruct K | K : same_length _ _ |- _ => unfold same_length in K end.

Lemma scale_gr : forall (O : ops) (lA lX lR : O -> O -> Prop), graded O lA lX lR -> forall (m1 m2 : mem O) (alpha1 alpha2 : O) x1 x2 f1 f2,
  vec_holds m1 x1 f1 -> vwritable x1 ->
  vec_holds m2 x2 f2 -> vwritable x2 ->
  same_length x1 x2 ->
  vec_le lX x1 f1 f2 -> lA alpha1 alpha2 ->
  succeeds (scale_1 alpha1 x1) m1 (fun _ m1' =>
  succeeds (scale_1 alpha2 x2) m2 (fun _ m2' =>
    exists r1 r2, vec_holds m1' x1 r1 /\ vec_holds m2' x2 r2 /\ vec_le lR x1 r1 r2)).
Proof.
  intros O lA lX lR H m1 m2 alpha1 alpha2 x1 x2 f1 f2; intros. shapes. eapply wp_conseq; [apply scale_1_ok; eauto|]. intros [] m1' [K1 _].
  eapply wp_conseq; [apply scale_1_ok; eauto|]. intros [] m2' [K2 _].
  do 2 eexists; split; [exact K1|split; [exact K2|]]. cbv beta. intros i Hi. gr H.
Qed.
Lemma scale_2_gr : forall (O : ops) (lA lX lR : O -> O -> Prop), graded O lA lX lR -> forall (m1 m2 : mem O) (alpha1 alpha2 : O) x1 x2 f1 f2,
  mat_holds m1 x1 f1 -> mwritable x1 ->
  mat_holds m2 x2 f2 -> mwritable x2 ->
  same_shape x1 x2 ->
  mat_le lX x1 all2 f1 f2 -> lA alpha1 alpha2 ->
  succeeds (scale_2 alpha1 x1) m1 (fun _ m1' =>
  succeeds (scale_2 alpha2 x2) m2 (fun _ m2' =>
    exists r1 r2, mat_holds m1' x1 r1 /\ mat_holds m2' x2 r2 /\ mat_le lR x1 all2 r1 r2)).
Proof.
  intros O lA lX lR H m1 m2 alpha1 alpha2 x1 x2 f1 f2; intros. shapes. eapply wp_conseq; [apply scale_2_ok; eauto|]. intros [] m1' [K1 _].
  eapply wp_conseq; [apply scale_2_ok; eauto|]. intros [] m2' [K2 _].
  do 2 eexists; split; [exact K1|split; [exact K2|]]. cbv beta. intros i j Hi Hj Ht. gr H.
Qed.
Lemma add_gr : forall (O : ops) (lA lX lR : O -> O -> Prop), graded O lA lX lR -> forall (m1 m2 : mem O) x1 x2 y1 y2 z1 z2 f1 f2 g1 g2,
  vext x1 = vext z1 -> vext y1 = vext z1 -> vec_holds m1 x1 f1 -> vec_holds m1 y1 g1 ->
  vwritable z1 -> allocated m1 (vcells z1) -> disjoint_or_aligned_v x1 z1 -> disjoint_or_aligned_v y1 z1 ->
  vext x2 = vext z2 -> vext y2 = vext z2 -> vec_holds m2 x2 f2 -> vec_holds m2 y2 g2 ->
  vwritable z2 -> allocated m2 (vcells z2) -> disjoint_or_aligned_v x2 z2 -> disjoint_or_aligned_v y2 z2 ->
  same_length x1 x2 -> same_length y1 y2 -> same_length z1 z2 ->
  vec_le lR x1 f1 f2 -> vec_le lR y1 g1 g2 ->
  succeeds (add_1 x1 y1 z1) m1 (fun _ m1' =>
  succeeds (add_1 x2 y2 z2) m2 (fun _ m2' =>
    exists r1 r2, vec_holds m1' z1 r1 /\ vec_holds m2' z2 r2 /\ vec_le lR z1 r1 r2)).
Proof.
  intros O lA lX lR H m1 m2 x1 x2 y1 y2 z1 z2 f1 f2 g1 g2; intros. shapes. eapply wp_conseq; [apply add_1_ok; eauto|]. intros [] m1' [K1 _].
  eapply wp_conseq; [apply add_1_ok; eauto|]. intros [] m2' [K2 _].
  do 2 eexists; split; [exact K1|split; [exact K2|]]. cbv beta. intros i Hi. gr H.
Qed.
Lemma add_2_gr : forall (O : ops) (lA lX lR : O -> O -> Prop), graded O lA lX lR -> forall (m1 m2 : mem O) x1 x2 y1 y2 z1 z2 f1 f2 g1 g2,
  ext0 x1 = ext0 z1 -> ext1 x1 = ext1 z1 -> ext0 y1 = ext0 z1 -> ext1 y1 = ext1 z1 ->
  mat_holds m1 x1 f1 -> mat_holds m1 y1 g1 ->
  mwritable z1 -> allocated m1 (mcells z1) -> disjoint_or_aligned_m x1 z1 -> disjoint_or_aligned_m y1 z1 ->
  ext0 x2 = ext0 z2 -> ext1 x2 = ext1 z2 -> ext0 y2 = ext0 z2 -> ext1 y2 = ext1 z2 ->
  mat_holds m2 x2 f2 -> mat_holds m2 y2 g2 ->
  mwritable z2 -> allocated m2 (mcells z2) -> disjoint_or_aligned_m x2 z2 -> disjoint_or_aligned_m y2 z2 ->
  same_shape x1 x2 -> same_shape y1 y2 -> same_shape z1 z2 ->
  mat_le lR x1 all2 f1 f2 -> mat_le lR y1 all2 g1 g2 ->
  succeeds (add_2 x1 y1 z1) m1 (fun _ m1' =>
  succeeds (add_2 x2 y2 z2) m2 (fun _ m2' =>
    exists r1 r2, mat_holds m1' z1 r1 /\ mat_holds m2' z2 r2 /\ mat_le lR z1 all2 r1 r2)).
Proof.
  intros O lA lX lR H m1 m2 x1 x2 y1 y2 z1 z2 f1 f2 g1 g2; intros. shapes. eapply wp_conseq; [apply add_2_ok; eauto|]. intros [] m1' [K1 _].
  eapply wp_conseq; [apply add_2_ok; eauto|]. intros [] m2' [K2 _].
  do 2 eexists; split; [exact K1|split; [exact K2|]]. cbv beta. intros i j Hi Hj Ht. gr H.
Qed.
Lemma dot_gr : forall (O : ops) (lA lX lR : O -> O -> Prop), graded O lA lX lR -> forall (m1 m2 : mem O) x1 x2 y1 y2 f1 f2 g1 g2 (init1 init2 : O),
  vext x1 = vext y1 -> vec_holds m1 x1 f1 -> vec_holds m1 y1 g1 ->
  vext x2 = vext y2 -> vec_holds m2 x2 f2 -> vec_holds m2 y2 g2 ->
  same_length x1 x2 -> same_length y1 y2 ->
  vec_le lA x1 f1 f2 -> vec_le lX y1 g1 g2 -> lR init1 init2 ->
  succeeds (dot x1 y1 init1) m1 (fun r1 _ => succeeds (dot x2 y2 init2) m2 (fun r2 _ => lR r1 r2)).
Proof.
  intros O lA lX lR H m1 m2 x1 x2 y1 y2 f1 f2 g1 g2 init1 init2; intros. shapes. eapply wp_conseq; [apply dot_ok; eauto|]. intros r1 m1' [-> _].
  eapply wp_conseq; [apply dot_ok; eauto|]. intros r2 m2' [-> _]. gr H.
Qed.
Lemma dotc_gr : forall (O : ops) (lA lX lR : O -> O -> Prop), graded O lA lX lR -> forall (m1 m2 : mem O) fix_nc nc x1 x2 y1 y2 f1 f2 g1 g2 (init1 init2 : O),
  (forall v : O, conj (conj v) = v) -> (nc = true -> forall v : O, conj v = v) ->
  vext x1 = vext y1 -> vec_holds m1 x1 f1 -> vec_holds m1 y1 g1 ->
  vext x2 = vext y2 -> vec_holds m2 x2 f2 -> vec_holds m2 y2 g2 ->
  same_length x1 x2 -> same_length y1 y2 ->
  vec_le lA x1 f1 f2 -> vec_le lX y1 g1 g2 -> lR init1 init2 ->
  succeeds (dotc fix_nc nc x1 y1 init1) m1 (fun r1 _ => succeeds (dotc fix_nc nc x2 y2 init2) m2 (fun r2 _ => lR r1 r2)).
Proof.
  intros O lA lX lR H m1 m2 fix_nc nc x1 x2 y1 y2 f1 f2 g1 g2 init1 init2; intros. shapes. eapply wp_conseq; [apply dotc_ok; eauto|]. intros r1 m1' [-> _].
  eapply wp_conseq; [apply dotc_ok; eauto|]. intros r2 m2' [-> _]. gr H.
Qed.
Lemma gemv_gr : forall (O : ops) (lA lX lR : O -> O -> Prop), graded O lA lX lR -> forall (m1 m2 : mem O) A1 A2 x1 x2 y1 y2 a1 a2 f1 f2,
  vext x1 = ext1 A1 -> vext y1 = ext0 A1 ->
  mat_holds m1 A1 a1 -> vec_holds m1 x1 f1 -> vwritable y1 -> allocated m1 (vcells y1) ->
  disjoint (mcells A1) (vcells y1) -> disjoint (vcells x1) (vcells y1) ->
  vext x2 = ext1 A2 -> vext y2 = ext0 A2 ->
  mat_holds m2 A2 a2 -> vec_holds m2 x2 f2 -> vwritable y2 -> allocated m2 (vcells y2) ->
  disjoint (mcells A2) (vcells y2) -> disjoint (vcells x2) (vcells y2) ->
  same_length x1 x2 -> same_shape A1 A2 -> same_length y1 y2 ->
  vec_le lX x1 f1 f2 -> mat_le lA A1 all2 a1 a2 ->
  succeeds (matrix_vector_product A1 x1 y1) m1 (fun _ m1' =>
  succeeds (matrix_vector_product A2 x2 y2) m2 (fun _ m2' =>
    exists r1 r2, vec_holds m1' y1 r1 /\ vec_holds m2' y2 r2 /\ vec_le lR y1 r1 r2)).
Proof.
  intros O lA lX lR H m1 m2 A1 A2 x1 x2 y1 y2 a1 a2 f1 f2; intros. shapes. eapply wp_conseq; [apply gemv_ok; eauto|]. intros [] m1' [K1 _].
  eapply wp_conseq; [apply gemv_ok; eauto|]. intros [] m2' [K2 _].
  do 2 eexists; split; [exact K1|split; [exact K2|]]. cbv beta. intros i Hi. gr H.
Qed.
Lemma gemv_upd_gr : forall (O : ops) (lA lX lR : O -> O -> Prop), graded O lA lX lR -> forall (m1 m2 : mem O) A1 A2 x1 x2 y1 y2 z1 z2 a1 a2 f1 f2 g1 g2,
  vext x1 = ext1 A1 -> vext y1 = ext0 A1 -> vext z1 = ext0 A1 ->
  mat_holds m1 A1 a1 -> vec_holds m1 x1 f1 -> vec_holds m1 y1 g1 -> vwritable z1 -> allocated m1 (vcells z1) ->
  disjoint (mcells A1) (vcells z1) -> disjoint (vcells x1) (vcells z1) -> disjoint_or_aligned_v y1 z1 ->
  vext x2 = ext1 A2 -> vext y2 = ext0 A2 -> vext z2 = ext0 A2 ->
  mat_holds m2 A2 a2 -> vec_holds m2 x2 f2 -> vec_holds m2 y2 g2 -> vwritable z2 -> allocated m2 (vcells z2) ->
  disjoint (mcells A2) (vcells z2) -> disjoint (vcells x2) (vcells z2) -> disjoint_or_aligned_v y2 z2 ->
  same_length x1 x2 -> same_length y1 y2 -> same_shape A1 A2 -> same_length z1 z2 ->
  vec_le lX x1 f1 f2 -> vec_le lR y1 g1 g2 -> mat_le lA A1 all2 a1 a2 ->
  succeeds (matrix_vector_product_upd A1 x1 y1 z1) m1 (fun _ m1' =>
  succeeds (matrix_vector_product_upd A2 x2 y2 z2) m2 (fun _ m2' =>
    exists r1 r2, vec_holds m1' z1 r1 /\ vec_holds m2' z2 r2 /\ vec_le lR z1 r1 r2)).
Proof.
  intros O lA lX lR H m1 m2 A1 A2 x1 x2 y1 y2 z1 z2 a1 a2 f1 f2 g1 g2; intros. shapes. eapply wp_conseq; [apply gemv_upd_ok with (g := g1); eauto|]. intros [] m1' [K1 _].
  eapply wp_conseq; [apply gemv_upd_ok with (g := g2); eauto|]. intros [] m2' [K2 _].
  do 2 eexists; split; [exact K1|split; [exact K2|]]. cbv beta. intros i Hi. gr H.
Qed.
Lemma symv_gr : forall (O : ops) (lA lX lR : O -> O -> Prop), graded O lA lX lR -> forall (m1 m2 : mem O) A1 A2 t x1 x2 y1 y2 a1 a2 f1 f2,
  ext0 A1 = ext1 A1 -> vext x1 = ext1 A1 -> vext y1 = ext0 A1 ->
  mat_holds_on m1 A1 (in_tri t) a1 -> vec_holds m1 x1 f1 -> vwritable y1 -> allocated m1 (vcells y1) ->
  disjoint (mcells_on A1 (in_tri t)) (vcells y1) -> disjoint (vcells x1) (vcells y1) ->
  ext0 A2 = ext1 A2 -> vext x2 = ext1 A2 -> vext y2 = ext0 A2 ->
  mat_holds_on m2 A2 (in_tri t) a2 -> vec_holds m2 x2 f2 -> vwritable y2 -> allocated m2 (vcells y2) ->
  disjoint (mcells_on A2 (in_tri t)) (vcells y2) -> disjoint (vcells x2) (vcells y2) ->
  same_length x1 x2 -> same_shape A1 A2 -> same_length y1 y2 ->
  vec_le lX x1 f1 f2 -> mat_le lA A1 (in_tri t) a1 a2 ->
  succeeds (symmetric_matrix_vector_product A1 t x1 y1) m1 (fun _ m1' =>
  succeeds (symmetric_matrix_vector_product A2 t x2 y2) m2 (fun _ m2' =>
    exists r1 r2, vec_holds m1' y1 r1 /\ vec_holds m2' y2 r2 /\ vec_le lR y1 r1 r2)).
Proof.
  intros O lA lX lR H m1 m2 A1 A2 t x1 x2 y1 y2 a1 a2 f1 f2; intros. shapes. eapply wp_conseq; [apply symv_ok; eauto|]. intros [] m1' [K1 _].
  eapply wp_conseq; [apply symv_ok; eauto|]. intros [] m2' [K2 _].
  do 2 eexists; split; [exact K1|split; [exact K2|]]. cbv beta. intros i Hi. gr H.
Qed.
Lemma symv_upd_gr : forall (O : ops) (lA lX lR : O -> O -> Prop), graded O lA lX lR -> forall (m1 m2 : mem O) A1 A2 t x1 x2 y1 y2 z1 z2 a1 a2 f1 f2 g1 g2,
  ext0 A1 = ext1 A1 -> vext x1 = ext1 A1 -> vext y1 = ext0 A1 -> vext z1 = ext0 A1 ->
  mat_holds_on m1 A1 (in_tri t) a1 -> vec_holds m1 x1 f1 -> vec_holds m1 y1 g1 -> vwritable z1 -> allocated m1 (vcells z1) ->
  disjoint (mcells_on A1 (in_tri t)) (vcells z1) -> disjoint (vcells x1) (vcells z1) -> disjoint_or_aligned_v y1 z1 ->
  ext0 A2 = ext1 A2 -> vext x2 = ext1 A2 -> vext y2 = ext0 A2 -> vext z2 = ext0 A2 ->
  mat_holds_on m2 A2 (in_tri t) a2 -> vec_holds m2 x2 f2 -> vec_holds m2 y2 g2 -> vwritable z2 -> allocated m2 (vcells z2) ->
  disjoint (mcells_on A2 (in_tri t)) (vcells z2) -> disjoint (vcells x2) (vcells z2) -> disjoint_or_aligned_v y2 z2 ->
  same_length x1 x2 -> same_length y1 y2 -> same_shape A1 A2 -> same_length z1 z2 ->
  vec_le lX x1 f1 f2 -> vec_le lR y1 g1 g2 -> mat_le lA A1 (in_tri t) a1 a2 ->
  succeeds (symmetric_matrix_vector_product_upd A1 t x1 y1 z1) m1 (fun _ m1' =>
  succeeds (symmetric_matrix_vector_product_upd A2 t x2 y2 z2) m2 (fun _ m2' =>
    exists r1 r2, vec_holds m1' z1 r1 /\ vec_holds m2' z2 r2 /\ vec_le lR z1 r1 r2)).
Proof.
  intros O lA lX lR H m1 m2 A1 A2 t x1 x2 y1 y2 z1 z2 a1 a2 f1 f2 g1 g2; intros. shapes. eapply wp_conseq; [apply symv_upd_ok with (g := g1); eauto|]. intros [] m1' [K1 _].
  eapply wp_conseq; [apply symv_upd_ok with (g := g2); eauto|]. intros [] m2' [K2 _].
  do 2 eexists; split; [exact K1|split; [exact K2|]]. cbv beta. intros i Hi. gr H.
Qed.
Lemma hemv_gr : forall (O : ops) (lA lX lR : O -> O -> Prop), graded O lA lX lR -> forall (m1 m2 : mem O) A1 A2 t x1 x2 y1 y2 a1 a2 f1 f2,
  ext0 A1 = ext1 A1 -> vext x1 = ext1 A1 -> vext y1 = ext0 A1 ->
  mat_holds_on m1 A1 (in_tri t) a1 -> vec_holds m1 x1 f1 -> vwritable y1 -> allocated m1 (vcells y1) ->
  disjoint (mcells_on A1 (in_tri t)) (vcells y1) -> disjoint (vcells x1) (vcells y1) ->
  ext0 A2 = ext1 A2 -> vext x2 = ext1 A2 -> vext y2 = ext0 A2 ->
  mat_holds_on m2 A2 (in_tri t) a2 -> vec_holds m2 x2 f2 -> vwritable y2 -> allocated m2 (vcells y2) ->
  disjoint (mcells_on A2 (in_tri t)) (vcells y2) -> disjoint (vcells x2) (vcells y2) ->
  same_length x1 x2 -> same_shape A1 A2 -> same_length y1 y2 ->
  vec_le lX x1 f1 f2 -> mat_le lA A1 (in_tri t) a1 a2 ->
  succeeds (hermitian_matrix_vector_product A1 t x1 y1) m1 (fun _ m1' =>
  succeeds (hermitian_matrix_vector_product A2 t x2 y2) m2 (fun _ m2' =>
    exists r1 r2, vec_holds m1' y1 r1 /\ vec_holds m2' y2 r2 /\ vec_le lR y1 r1 r2)).
Proof.
  intros O lA lX lR H m1 m2 A1 A2 t x1 x2 y1 y2 a1 a2 f1 f2; intros. shapes. eapply wp_conseq; [apply hemv_ok; eauto|]. intros [] m1' [K1 _].
  eapply wp_conseq; [apply hemv_ok; eauto|]. intros [] m2' [K2 _].
  do 2 eexists; split; [exact K1|split; [exact K2|]]. cbv beta. intros i Hi. gr H.
Qed.
Lemma hemv_upd_gr : forall (O : ops) (lA lX lR : O -> O -> Prop), graded O lA lX lR -> forall (m1 m2 : mem O) A1 A2 t x1 x2 y1 y2 z1 z2 a1 a2 f1 f2 g1 g2,
  ext0 A1 = ext1 A1 -> vext x1 = ext1 A1 -> vext y1 = ext0 A1 -> vext z1 = ext0 A1 ->
  mat_holds_on m1 A1 (in_tri t) a1 -> vec_holds m1 x1 f1 -> vec_holds m1 y1 g1 -> vwritable z1 -> allocated m1 (vcells z1) ->
  disjoint (mcells_on A1 (in_tri t)) (vcells z1) -> disjoint (vcells x1) (vcells z1) -> disjoint_or_aligned_v y1 z1 ->
  ext0 A2 = ext1 A2 -> vext x2 = ext1 A2 -> vext y2 = ext0 A2 -> vext z2 = ext0 A2 ->
  mat_holds_on m2 A2 (in_tri t) a2 -> vec_holds m2 x2 f2 -> vec_holds m2 y2 g2 -> vwritable z2 -> allocated m2 (vcells z2) ->
  disjoint (mcells_on A2 (in_tri t)) (vcells z2) -> disjoint (vcells x2) (vcells z2) -> disjoint_or_aligned_v y2 z2 ->
  same_length x1 x2 -> same_length y1 y2 -> same_shape A1 A2 -> same_length z1 z2 ->
  vec_le lX x1 f1 f2 -> vec_le lR y1 g1 g2 -> mat_le lA A1 (in_tri t) a1 a2 ->
  succeeds (hermitian_matrix_vector_product_upd A1 t x1 y1 z1) m1 (fun _ m1' =>
  succeeds (hermitian_matrix_vector_product_upd A2 t x2 y2 z2) m2 (fun _ m2' =>
    exists r1 r2, vec_holds m1' z1 r1 /\ vec_holds m2' z2 r2 /\ vec_le lR z1 r1 r2)).
Proof.
  intros O lA lX lR H m1 m2 A1 A2 t x1 x2 y1 y2 z1 z2 a1 a2 f1 f2 g1 g2; intros. shapes. eapply wp_conseq; [apply hemv_upd_ok with (g := g1); eauto|]. intros [] m1' [K1 _].
  eapply wp_conseq; [apply hemv_upd_ok with (g := g2); eauto|]. intros [] m2' [K2 _].
  do 2 eexists; split; [exact K1|split; [exact K2|]]. cbv beta. intros i Hi. gr H.
Qed.
Lemma trmv_gr : forall (O : ops) (lA lX lR : O -> O -> Prop), graded O lA lX lR -> forall (m1 m2 : mem O) A1 A2 t d x1 x2 y1 y2 a1 a2 f1 f2,
  unit_ok d lX lR ->
  ext0 A1 = ext1 A1 -> vext x1 = ext1 A1 -> vext y1 = ext0 A1 ->
  mat_holds_on m1 A1 (stored t d) a1 -> vec_holds m1 x1 f1 -> vwritable y1 -> allocated m1 (vcells y1) ->
  disjoint (mcells_on A1 (stored t d)) (vcells y1) -> disjoint (vcells x1) (vcells y1) ->
  ext0 A2 = ext1 A2 -> vext x2 = ext1 A2 -> vext y2 = ext0 A2 ->
  mat_holds_on m2 A2 (stored t d) a2 -> vec_holds m2 x2 f2 -> vwritable y2 -> allocated m2 (vcells y2) ->
  disjoint (mcells_on A2 (stored t d)) (vcells y2) -> disjoint (vcells x2) (vcells y2) ->
  same_length x1 x2 -> same_shape A1 A2 -> same_length y1 y2 ->
  vec_le lX x1 f1 f2 -> mat_le lA A1 (stored t d) a1 a2 ->
  succeeds (triangular_matrix_vector_product A1 t d x1 y1) m1 (fun _ m1' =>
  succeeds (triangular_matrix_vector_product A2 t d x2 y2) m2 (fun _ m2' =>
    exists r1 r2, vec_holds m1' y1 r1 /\ vec_holds m2' y2 r2 /\ vec_le lR y1 r1 r2)).
Proof.
  intros O lA lX lR H m1 m2 A1 A2 t d x1 x2 y1 y2 a1 a2 f1 f2 U; intros. shapes. eapply wp_conseq; [apply trmv_ok; eauto|]. intros [] m1' [K1 _].
  eapply wp_conseq; [apply trmv_ok; eauto|]. intros [] m2' [K2 _].
  do 2 eexists; split; [exact K1|split; [exact K2|]]. cbv beta. intros i Hi. apply (tri_row_gr H); try lia; auto; try gr H; intros; gr H.
Qed.
Lemma trmv_upd_gr : forall (O : ops) (lA lX lR : O -> O -> Prop), graded O lA lX lR -> forall (m1 m2 : mem O) A1 A2 t d x1 x2 y1 y2 z1 z2 a1 a2 f1 f2 g1 g2,
  unit_ok d lX lR ->
  ext0 A1 = ext1 A1 -> vext x1 = ext1 A1 -> vext y1 = ext0 A1 -> vext z1 = ext0 A1 ->
  mat_holds_on m1 A1 (stored t d) a1 -> vec_holds m1 x1 f1 -> vec_holds m1 y1 g1 -> vwritable z1 -> allocated m1 (vcells z1) ->
  disjoint (mcells_on A1 (stored t d)) (vcells z1) -> disjoint (vcells x1) (vcells z1) -> disjoint_or_aligned_v y1 z1 ->
  ext0 A2 = ext1 A2 -> vext x2 = ext1 A2 -> vext y2 = ext0 A2 -> vext z2 = ext0 A2 ->
  mat_holds_on m2 A2 (stored t d) a2 -> vec_holds m2 x2 f2 -> vec_holds m2 y2 g2 -> vwritable z2 -> allocated m2 (vcells z2) ->
  disjoint (mcells_on A2 (stored t d)) (vcells z2) -> disjoint (vcells x2) (vcells z2) -> disjoint_or_aligned_v y2 z2 ->
  same_length x1 x2 -> same_length y1 y2 -> same_shape A1 A2 -> same_length z1 z2 ->
  vec_le lX x1 f1 f2 -> vec_le lR y1 g1 g2 -> mat_le lA A1 (stored t d) a1 a2 ->
  succeeds (triangular_matrix_vector_product_upd A1 t d x1 y1 z1) m1 (fun _ m1' =>
  succeeds (triangular_matrix_vector_product_upd A2 t d x2 y2 z2) m2 (fun _ m2' =>
    exists r1 r2, vec_holds m1' z1 r1 /\ vec_holds m2' z2 r2 /\ vec_le lR z1 r1 r2)).
Proof.
  intros O lA lX lR H m1 m2 A1 A2 t d x1 x2 y1 y2 z1 z2 a1 a2 f1 f2 g1 g2 U; intros. shapes. eapply wp_conseq; [apply trmv_upd_ok with (g := g1); eauto|]. intros [] m1' [K1 _].
  eapply wp_conseq; [apply trmv_upd_ok with (g := g2); eauto|]. intros [] m2' [K2 _].
  do 2 eexists; split; [exact K1|split; [exact K2|]]. cbv beta. intros i Hi. apply (tri_row_gr H); try lia; auto; try gr H; intros; gr H.
Qed.
Lemma trmv_inplace_gr : forall (O : ops) (lA lX lR : O -> O -> Prop), graded O lA lX lR -> forall (m1 m2 : mem O) A1 A2 t d y1 y2 a1 a2 f1 f2,
  unit_ok d lX lR ->
  ext0 A1 = ext1 A1 -> vext y1 = ext0 A1 ->
  mat_holds_on m1 A1 (stored t d) a1 -> vec_holds m1 y1 f1 -> vwritable y1 ->
  disjoint (mcells_on A1 (stored t d)) (vcells y1) ->
  ext0 A2 = ext1 A2 -> vext y2 = ext0 A2 ->
  mat_holds_on m2 A2 (stored t d) a2 -> vec_holds m2 y2 f2 -> vwritable y2 ->
  disjoint (mcells_on A2 (stored t d)) (vcells y2) ->
  same_length y1 y2 -> same_shape A1 A2 ->
  vec_le lX y1 f1 f2 -> mat_le lA A1 (stored t d) a1 a2 ->
  succeeds (triangular_matrix_vector_product_inplace A1 t d y1) m1 (fun _ m1' =>
  succeeds (triangular_matrix_vector_product_inplace A2 t d y2) m2 (fun _ m2' =>
    exists r1 r2, vec_holds m1' y1 r1 /\ vec_holds m2' y2 r2 /\ vec_le lR y1 r1 r2)).
Proof.
  intros O lA lX lR H m1 m2 A1 A2 t d y1 y2 a1 a2 f1 f2 U; intros. shapes. eapply wp_conseq; [apply trmv_inplace_exact; eauto|]. intros [] m1' [K1 _].
  eapply wp_conseq; [apply trmv_inplace_exact; eauto|]. intros [] m2' [K2 _].
  do 2 eexists; split; [exact K1|split; [exact K2|]]. cbv beta. intros i Hi. apply (added_gr H); [congruence| |].
  - apply diag_gr; [intros ->|intros; apply U; auto; gr H]. assert (stored t Explicit i i) by (split; [destruct t; simpl; lia|discriminate]). gr H.
  - intros k Hk. apply row_order_in in Hk; [|lia]. destruct Hk as (Q1 & Q2 & Q3). assert (stored t d i k) by (split; auto). gr H.
Qed.
Lemma ger_gr : forall (O : ops) (lA lX lR : O -> O -> Prop), graded O lA lX lR -> forall (m1 m2 : mem O) x1 x2 y1 y2 A1 A2 a1 a2 f1 f2 g1 g2,
  vext x1 = ext0 A1 -> vext y1 = ext1 A1 ->
  mat_holds m1 A1 a1 -> vec_holds m1 x1 f1 -> vec_holds m1 y1 g1 -> mwritable A1 ->
  disjoint (vcells x1) (mcells A1) -> disjoint (vcells y1) (mcells A1) ->
  vext x2 = ext0 A2 -> vext y2 = ext1 A2 ->
  mat_holds m2 A2 a2 -> vec_holds m2 x2 f2 -> vec_holds m2 y2 g2 -> mwritable A2 ->
  disjoint (vcells x2) (mcells A2) -> disjoint (vcells y2) (mcells A2) ->
  same_length x1 x2 -> same_length y1 y2 -> same_shape A1 A2 ->
  vec_le lA x1 f1 f2 -> vec_le lX y1 g1 g2 -> mat_le lR A1 all2 a1 a2 ->
  succeeds (matrix_rank_1_update x1 y1 A1) m1 (fun _ m1' =>
  succeeds (matrix_rank_1_update x2 y2 A2) m2 (fun _ m2' =>
    exists r1 r2, mat_holds m1' A1 r1 /\ mat_holds m2' A2 r2 /\ mat_le lR A1 all2 r1 r2)).
Proof.
  intros O lA lX lR H m1 m2 x1 x2 y1 y2 A1 A2 a1 a2 f1 f2 g1 g2; intros. shapes. eapply wp_conseq; [apply ger_ok; eauto|]. intros [] m1' [K1 _].
  eapply wp_conseq; [apply ger_ok; eauto|]. intros [] m2' [K2 _].
  do 2 eexists; split; [exact K1|split; [exact K2|]]. cbv beta. intros i j Hi Hj Ht. gr H.
Qed.
Lemma gerc_gr : forall (O : ops) (lA lX lR : O -> O -> Prop), graded O lA lX lR -> forall (m1 m2 : mem O) fix_nc nc x1 x2 y1 y2 A1 A2 a1 a2 f1 f2 g1 g2,
  (forall v : O, conj (conj v) = v) -> (nc = true -> forall v : O, conj v = v) ->
  vext x1 = ext0 A1 -> vext y1 = ext1 A1 ->
  mat_holds m1 A1 a1 -> vec_holds m1 x1 f1 -> vec_holds m1 y1 g1 -> mwritable A1 ->
  disjoint (vcells x1) (mcells A1) -> disjoint (vcells y1) (mcells A1) ->
  vext x2 = ext0 A2 -> vext y2 = ext1 A2 ->
  mat_holds m2 A2 a2 -> vec_holds m2 x2 f2 -> vec_holds m2 y2 g2 -> mwritable A2 ->
  disjoint (vcells x2) (mcells A2) -> disjoint (vcells y2) (mcells A2) ->
  same_length x1 x2 -> same_length y1 y2 -> same_shape A1 A2 ->
  vec_le lA x1 f1 f2 -> vec_le lX y1 g1 g2 -> mat_le lR A1 all2 a1 a2 ->
  succeeds (matrix_rank_1_update_c fix_nc nc x1 y1 A1) m1 (fun _ m1' =>
  succeeds (matrix_rank_1_update_c fix_nc nc x2 y2 A2) m2 (fun _ m2' =>
    exists r1 r2, mat_holds m1' A1 r1 /\ mat_holds m2' A2 r2 /\ mat_le lR A1 all2 r1 r2)).
Proof.
  intros O lA lX lR H m1 m2 fix_nc nc x1 x2 y1 y2 A1 A2 a1 a2 f1 f2 g1 g2; intros. shapes. eapply wp_conseq; [apply gerc_ok; eauto|]. intros [] m1' [K1 _].
  eapply wp_conseq; [apply gerc_ok; eauto|]. intros [] m2' [K2 _].
  do 2 eexists; split; [exact K1|split; [exact K2|]]. cbv beta. intros i j Hi Hj Ht. gr H.
Qed.
Lemma syr_gr : forall (O : ops) (lA lR : O -> O -> Prop), graded O lA lA lR -> forall (m1 m2 : mem O) x1 x2 A1 A2 t a1 a2 f1 f2,
  ext0 A1 = ext1 A1 -> vext x1 = ext0 A1 ->
  mat_holds_on m1 A1 (in_tri t) a1 -> vec_holds m1 x1 f1 -> mwritable_on A1 (in_tri t) ->
  disjoint (vcells x1) (mcells_on A1 (in_tri t)) ->
  ext0 A2 = ext1 A2 -> vext x2 = ext0 A2 ->
  mat_holds_on m2 A2 (in_tri t) a2 -> vec_holds m2 x2 f2 -> mwritable_on A2 (in_tri t) ->
  disjoint (vcells x2) (mcells_on A2 (in_tri t)) ->
  same_length x1 x2 -> same_shape A1 A2 ->
  vec_le lA x1 f1 f2 -> mat_le lR A1 (in_tri t) a1 a2 ->
  succeeds (symmetric_matrix_rank_1_update x1 A1 t) m1 (fun _ m1' =>
  succeeds (symmetric_matrix_rank_1_update x2 A2 t) m2 (fun _ m2' =>
    exists r1 r2, mat_holds_on m1' A1 (in_tri t) r1 /\ mat_holds_on m2' A2 (in_tri t) r2 /\ mat_le lR A1 (in_tri t) r1 r2)).
Proof.
  intros O lA lR H m1 m2 x1 x2 A1 A2 t a1 a2 f1 f2; intros. shapes. eapply wp_conseq; [apply syr_ok; eauto|]. intros [] m1' [K1 _].
  eapply wp_conseq; [apply syr_ok; eauto|]. intros [] m2' [K2 _].
  do 2 eexists; split; [exact K1|split; [exact K2|]]. cbv beta. intros i j Hi Hj Ht. gr H.
Qed.
Lemma syr2_gr : forall (O : ops) (lA lX lR : O -> O -> Prop), graded O lA lX lR -> forall (m1 m2 : mem O) x1 x2 y1 y2 A1 A2 t a1 a2 f1 f2 g1 g2,
  ext0 A1 = ext1 A1 -> vext x1 = ext0 A1 -> vext y1 = ext0 A1 ->
  mat_holds_on m1 A1 (in_tri t) a1 -> vec_holds m1 x1 f1 -> vec_holds m1 y1 g1 -> mwritable_on A1 (in_tri t) ->
  disjoint (vcells x1) (mcells_on A1 (in_tri t)) -> disjoint (vcells y1) (mcells_on A1 (in_tri t)) ->
  ext0 A2 = ext1 A2 -> vext x2 = ext0 A2 -> vext y2 = ext0 A2 ->
  mat_holds_on m2 A2 (in_tri t) a2 -> vec_holds m2 x2 f2 -> vec_holds m2 y2 g2 -> mwritable_on A2 (in_tri t) ->
  disjoint (vcells x2) (mcells_on A2 (in_tri t)) -> disjoint (vcells y2) (mcells_on A2 (in_tri t)) ->
  same_length x1 x2 -> same_length y1 y2 -> same_shape A1 A2 ->
  vec_le lA x1 f1 f2 -> vec_le lX y1 g1 g2 -> mat_le lR A1 (in_tri t) a1 a2 ->
  succeeds (symmetric_matrix_rank_2_update x1 y1 A1 t) m1 (fun _ m1' =>
  succeeds (symmetric_matrix_rank_2_update x2 y2 A2 t) m2 (fun _ m2' =>
    exists r1 r2, mat_holds_on m1' A1 (in_tri t) r1 /\ mat_holds_on m2' A2 (in_tri t) r2 /\ mat_le lR A1 (in_tri t) r1 r2)).
Proof.
  intros O lA lX lR H m1 m2 x1 x2 y1 y2 A1 A2 t a1 a2 f1 f2 g1 g2; intros. shapes. eapply wp_conseq; [apply syr2_ok; eauto|]. intros [] m1' [K1 _].
  eapply wp_conseq; [apply syr2_ok; eauto|]. intros [] m2' [K2 _].
  do 2 eexists; split; [exact K1|split; [exact K2|]]. cbv beta. intros i j Hi Hj Ht. gr H.
Qed.
Lemma her_gr : forall (O : ops) (lA lR : O -> O -> Prop), graded O lA lA lR -> forall (m1 m2 : mem O) x1 x2 A1 A2 t a1 a2 f1 f2,
  ext0 A1 = ext1 A1 -> vext x1 = ext0 A1 ->
  mat_holds_on m1 A1 (in_tri t) a1 -> vec_holds m1 x1 f1 -> mwritable_on A1 (in_tri t) ->
  disjoint (vcells x1) (mcells_on A1 (in_tri t)) ->
  ext0 A2 = ext1 A2 -> vext x2 = ext0 A2 ->
  mat_holds_on m2 A2 (in_tri t) a2 -> vec_holds m2 x2 f2 -> mwritable_on A2 (in_tri t) ->
  disjoint (vcells x2) (mcells_on A2 (in_tri t)) ->
  same_length x1 x2 -> same_shape A1 A2 ->
  vec_le lA x1 f1 f2 -> mat_le lR A1 (in_tri t) a1 a2 ->
  succeeds (hermitian_matrix_rank_1_update x1 A1 t) m1 (fun _ m1' =>
  succeeds (hermitian_matrix_rank_1_update x2 A2 t) m2 (fun _ m2' =>
    exists r1 r2, mat_holds_on m1' A1 (in_tri t) r1 /\ mat_holds_on m2' A2 (in_tri t) r2 /\ mat_le lR A1 (in_tri t) r1 r2)).
Proof.
  intros O lA lR H m1 m2 x1 x2 A1 A2 t a1 a2 f1 f2; intros. shapes. eapply wp_conseq; [apply her_ok; eauto|]. intros [] m1' [K1 _].
  eapply wp_conseq; [apply her_ok; eauto|]. intros [] m2' [K2 _].
  do 2 eexists; split; [exact K1|split; [exact K2|]]. cbv beta. intros i j Hi Hj Ht. gr H.
Qed.
Lemma her2_gr : forall (O : ops) (lA lX lR : O -> O -> Prop), graded O lA lX lR -> forall (m1 m2 : mem O) x1 x2 y1 y2 A1 A2 t a1 a2 f1 f2 g1 g2,
  ext0 A1 = ext1 A1 -> vext x1 = ext0 A1 -> vext y1 = ext0 A1 ->
  mat_holds_on m1 A1 (in_tri t) a1 -> vec_holds m1 x1 f1 -> vec_holds m1 y1 g1 -> mwritable_on A1 (in_tri t) ->
  disjoint (vcells x1) (mcells_on A1 (in_tri t)) -> disjoint (vcells y1) (mcells_on A1 (in_tri t)) ->
  ext0 A2 = ext1 A2 -> vext x2 = ext0 A2 -> vext y2 = ext0 A2 ->
  mat_holds_on m2 A2 (in_tri t) a2 -> vec_holds m2 x2 f2 -> vec_holds m2 y2 g2 -> mwritable_on A2 (in_tri t) ->
  disjoint (vcells x2) (mcells_on A2 (in_tri t)) -> disjoint (vcells y2) (mcells_on A2 (in_tri t)) ->
  same_length x1 x2 -> same_length y1 y2 -> same_shape A1 A2 ->
  vec_le lA x1 f1 f2 -> vec_le lX y1 g1 g2 -> mat_le lR A1 (in_tri t) a1 a2 ->
  succeeds (hermitian_matrix_rank_2_update x1 y1 A1 t) m1 (fun _ m1' =>
  succeeds (hermitian_matrix_rank_2_update x2 y2 A2 t) m2 (fun _ m2' =>
    exists r1 r2, mat_holds_on m1' A1 (in_tri t) r1 /\ mat_holds_on m2' A2 (in_tri t) r2 /\ mat_le lR A1 (in_tri t) r1 r2)).
Proof.
  intros O lA lX lR H m1 m2 x1 x2 y1 y2 A1 A2 t a1 a2 f1 f2 g1 g2; intros. shapes. eapply wp_conseq; [apply her2_ok; eauto|]. intros [] m1' [K1 _].
  eapply wp_conseq; [apply her2_ok; eauto|]. intros [] m2' [K2 _].
  do 2 eexists; split; [exact K1|split; [exact K2|]]. cbv beta. intros i j Hi Hj Ht. gr H.
Qed.
Lemma gemm_gr : forall (O : ops) (lA lX lR : O -> O -> Prop), graded O lA lX lR -> forall (m1 m2 : mem O) A1 A2 B1 B2 C1 C2 a1 a2 b1 b2,
  ext0 C1 = ext0 A1 -> ext1 A1 = ext0 B1 -> ext1 C1 = ext1 B1 ->
  mat_holds m1 A1 a1 -> mat_holds m1 B1 b1 -> mwritable C1 -> allocated m1 (mcells C1) ->
  disjoint (mcells A1) (mcells C1) -> disjoint (mcells B1) (mcells C1) ->
  ext0 C2 = ext0 A2 -> ext1 A2 = ext0 B2 -> ext1 C2 = ext1 B2 ->
  mat_holds m2 A2 a2 -> mat_holds m2 B2 b2 -> mwritable C2 -> allocated m2 (mcells C2) ->
  disjoint (mcells A2) (mcells C2) -> disjoint (mcells B2) (mcells C2) ->
  same_shape A1 A2 -> same_shape B1 B2 -> same_shape C1 C2 ->
  mat_le lA A1 all2 a1 a2 -> mat_le lX B1 all2 b1 b2 ->
  succeeds (matrix_product A1 B1 C1) m1 (fun _ m1' =>
  succeeds (matrix_product A2 B2 C2) m2 (fun _ m2' =>
    exists r1 r2, mat_holds m1' C1 r1 /\ mat_holds m2' C2 r2 /\ mat_le lR C1 all2 r1 r2)).
Proof.
  intros O lA lX lR H m1 m2 A1 A2 B1 B2 C1 C2 a1 a2 b1 b2; intros. shapes. eapply wp_conseq; [apply gemm_ok; eauto|]. intros [] m1' [K1 _].
  eapply wp_conseq; [apply gemm_ok; eauto|]. intros [] m2' [K2 _].
  do 2 eexists; split; [exact K1|split; [exact K2|]]. cbv beta. intros i j Hi Hj Ht. gr H.
Qed.
Lemma gemm_upd_gr : forall (O : ops) (lA lX lR : O -> O -> Prop), graded O lA lX lR -> forall (m1 m2 : mem O) A1 A2 B1 B2 E1 E2 C1 C2 a1 a2 b1 b2 e1 e2,
  ext0 C1 = ext0 A1 -> ext1 A1 = ext0 B1 -> ext1 C1 = ext1 B1 -> ext0 E1 = ext0 C1 -> ext1 E1 = ext1 C1 ->
  mat_holds m1 A1 a1 -> mat_holds m1 B1 b1 -> mat_holds m1 E1 e1 -> mwritable C1 -> allocated m1 (mcells C1) ->
  disjoint (mcells A1) (mcells C1) -> disjoint (mcells B1) (mcells C1) -> disjoint_or_aligned_m E1 C1 ->
  ext0 C2 = ext0 A2 -> ext1 A2 = ext0 B2 -> ext1 C2 = ext1 B2 -> ext0 E2 = ext0 C2 -> ext1 E2 = ext1 C2 ->
  mat_holds m2 A2 a2 -> mat_holds m2 B2 b2 -> mat_holds m2 E2 e2 -> mwritable C2 -> allocated m2 (mcells C2) ->
  disjoint (mcells A2) (mcells C2) -> disjoint (mcells B2) (mcells C2) -> disjoint_or_aligned_m E2 C2 ->
  same_shape A1 A2 -> same_shape B1 B2 -> same_shape E1 E2 -> same_shape C1 C2 ->
  mat_le lA A1 all2 a1 a2 -> mat_le lX B1 all2 b1 b2 -> mat_le lR E1 all2 e1 e2 ->
  succeeds (matrix_product_upd A1 B1 E1 C1) m1 (fun _ m1' =>
  succeeds (matrix_product_upd A2 B2 E2 C2) m2 (fun _ m2' =>
    exists r1 r2, mat_holds m1' C1 r1 /\ mat_holds m2' C2 r2 /\ mat_le lR C1 all2 r1 r2)).
Proof.
  intros O lA lX lR H m1 m2 A1 A2 B1 B2 E1 E2 C1 C2 a1 a2 b1 b2 e1 e2; intros. shapes. eapply wp_conseq; [apply gemm_upd_ok with (e := e1); eauto|]. intros [] m1' [K1 _].
  eapply wp_conseq; [apply gemm_upd_ok with (e := e2); eauto|]. intros [] m2' [K2 _].
  do 2 eexists; split; [exact K1|split; [exact K2|]]. cbv beta. intros i j Hi Hj Ht. gr H.
Qed.
Lemma symm_left_gr : forall (O : ops) (lA lX lR : O -> O -> Prop), graded O lA lX lR -> forall (m1 m2 : mem O) A1 A2 t B1 B2 C1 C2 a1 a2 b1 b2,
  ext0 A1 = ext1 A1 -> ext0 C1 = ext0 A1 -> ext1 A1 = ext0 B1 -> ext1 C1 = ext1 B1 ->
  mat_holds_on m1 A1 (in_tri t) a1 -> mat_holds m1 B1 b1 -> mwritable C1 -> allocated m1 (mcells C1) ->
  disjoint (mcells_on A1 (in_tri t)) (mcells C1) -> disjoint (mcells B1) (mcells C1) ->
  ext0 A2 = ext1 A2 -> ext0 C2 = ext0 A2 -> ext1 A2 = ext0 B2 -> ext1 C2 = ext1 B2 ->
  mat_holds_on m2 A2 (in_tri t) a2 -> mat_holds m2 B2 b2 -> mwritable C2 -> allocated m2 (mcells C2) ->
  disjoint (mcells_on A2 (in_tri t)) (mcells C2) -> disjoint (mcells B2) (mcells C2) ->
  same_shape B1 B2 -> same_shape A1 A2 -> same_shape C1 C2 ->
  mat_le lX B1 all2 b1 b2 -> mat_le lA A1 (in_tri t) a1 a2 ->
  succeeds (symmetric_matrix_product_left A1 t B1 C1) m1 (fun _ m1' =>
  succeeds (symmetric_matrix_product_left A2 t B2 C2) m2 (fun _ m2' =>
    exists r1 r2, mat_holds m1' C1 r1 /\ mat_holds m2' C2 r2 /\ mat_le lR C1 all2 r1 r2)).
Proof.
  intros O lA lX lR H m1 m2 A1 A2 t B1 B2 C1 C2 a1 a2 b1 b2; intros. shapes. eapply wp_conseq; [apply symm_left_ok; eauto|]. intros [] m1' [K1 _].
  eapply wp_conseq; [apply symm_left_ok; eauto|]. intros [] m2' [K2 _].
  do 2 eexists; split; [exact K1|split; [exact K2|]]. cbv beta. intros i j Hi Hj Ht. gr H.
Qed.
Lemma symm_right_gr : forall (O : ops) (lA lX lR : O -> O -> Prop), graded O lA lX lR -> forall (m1 m2 : mem O) B1 B2 A1 A2 t C1 C2 a1 a2 b1 b2,
  ext0 A1 = ext1 A1 -> ext0 C1 = ext0 B1 -> ext1 B1 = ext0 A1 -> ext1 C1 = ext1 A1 ->
  mat_holds_on m1 A1 (in_tri t) a1 -> mat_holds m1 B1 b1 -> mwritable C1 -> allocated m1 (mcells C1) ->
  disjoint (mcells_on A1 (in_tri t)) (mcells C1) -> disjoint (mcells B1) (mcells C1) ->
  ext0 A2 = ext1 A2 -> ext0 C2 = ext0 B2 -> ext1 B2 = ext0 A2 -> ext1 C2 = ext1 A2 ->
  mat_holds_on m2 A2 (in_tri t) a2 -> mat_holds m2 B2 b2 -> mwritable C2 -> allocated m2 (mcells C2) ->
  disjoint (mcells_on A2 (in_tri t)) (mcells C2) -> disjoint (mcells B2) (mcells C2) ->
  same_shape B1 B2 -> same_shape A1 A2 -> same_shape C1 C2 ->
  mat_le lX B1 all2 b1 b2 -> mat_le lA A1 (in_tri t) a1 a2 ->
  succeeds (symmetric_matrix_product_right B1 A1 t C1) m1 (fun _ m1' =>
  succeeds (symmetric_matrix_product_right B2 A2 t C2) m2 (fun _ m2' =>
    exists r1 r2, mat_holds m1' C1 r1 /\ mat_holds m2' C2 r2 /\ mat_le lR C1 all2 r1 r2)).
Proof.
  intros O lA lX lR H m1 m2 B1 B2 A1 A2 t C1 C2 a1 a2 b1 b2; intros. shapes. eapply wp_conseq; [apply symm_right_ok; eauto|]. intros [] m1' [K1 _].
  eapply wp_conseq; [apply symm_right_ok; eauto|]. intros [] m2' [K2 _].
  do 2 eexists; split; [exact K1|split; [exact K2|]]. cbv beta. intros i j Hi Hj Ht. gr H.
Qed.
Lemma hemm_left_gr : forall (O : ops) (lA lX lR : O -> O -> Prop), graded O lA lX lR -> forall (m1 m2 : mem O) A1 A2 t B1 B2 C1 C2 a1 a2 b1 b2,
  ext0 A1 = ext1 A1 -> ext0 C1 = ext0 A1 -> ext1 A1 = ext0 B1 -> ext1 C1 = ext1 B1 ->
  mat_holds_on m1 A1 (in_tri t) a1 -> mat_holds m1 B1 b1 -> mwritable C1 -> allocated m1 (mcells C1) ->
  disjoint (mcells_on A1 (in_tri t)) (mcells C1) -> disjoint (mcells B1) (mcells C1) ->
  ext0 A2 = ext1 A2 -> ext0 C2 = ext0 A2 -> ext1 A2 = ext0 B2 -> ext1 C2 = ext1 B2 ->
  mat_holds_on m2 A2 (in_tri t) a2 -> mat_holds m2 B2 b2 -> mwritable C2 -> allocated m2 (mcells C2) ->
  disjoint (mcells_on A2 (in_tri t)) (mcells C2) -> disjoint (mcells B2) (mcells C2) ->
  same_shape B1 B2 -> same_shape A1 A2 -> same_shape C1 C2 ->
  mat_le lX B1 all2 b1 b2 -> mat_le lA A1 (in_tri t) a1 a2 ->
  succeeds (hermitian_matrix_product_left A1 t B1 C1) m1 (fun _ m1' =>
  succeeds (hermitian_matrix_product_left A2 t B2 C2) m2 (fun _ m2' =>
    exists r1 r2, mat_holds m1' C1 r1 /\ mat_holds m2' C2 r2 /\ mat_le lR C1 all2 r1 r2)).
Proof.
  intros O lA lX lR H m1 m2 A1 A2 t B1 B2 C1 C2 a1 a2 b1 b2; intros. shapes. eapply wp_conseq; [apply hemm_left_ok; eauto|]. intros [] m1' [K1 _].
  eapply wp_conseq; [apply hemm_left_ok; eauto|]. intros [] m2' [K2 _].
  do 2 eexists; split; [exact K1|split; [exact K2|]]. cbv beta. intros i j Hi Hj Ht. gr H.
Qed.
Lemma hemm_right_gr : forall (O : ops) (lA lX lR : O -> O -> Prop), graded O lA lX lR -> forall (m1 m2 : mem O) B1 B2 A1 A2 t C1 C2 a1 a2 b1 b2,
  ext0 A1 = ext1 A1 -> ext0 C1 = ext0 B1 -> ext1 B1 = ext0 A1 -> ext1 C1 = ext1 A1 ->
  mat_holds_on m1 A1 (in_tri t) a1 -> mat_holds m1 B1 b1 -> mwritable C1 -> allocated m1 (mcells C1) ->
  disjoint (mcells_on A1 (in_tri t)) (mcells C1) -> disjoint (mcells B1) (mcells C1) ->
  ext0 A2 = ext1 A2 -> ext0 C2 = ext0 B2 -> ext1 B2 = ext0 A2 -> ext1 C2 = ext1 A2 ->
  mat_holds_on m2 A2 (in_tri t) a2 -> mat_holds m2 B2 b2 -> mwritable C2 -> allocated m2 (mcells C2) ->
  disjoint (mcells_on A2 (in_tri t)) (mcells C2) -> disjoint (mcells B2) (mcells C2) ->
  same_shape B1 B2 -> same_shape A1 A2 -> same_shape C1 C2 ->
  mat_le lX B1 all2 b1 b2 -> mat_le lA A1 (in_tri t) a1 a2 ->
  succeeds (hermitian_matrix_product_right B1 A1 t C1) m1 (fun _ m1' =>
  succeeds (hermitian_matrix_product_right B2 A2 t C2) m2 (fun _ m2' =>
    exists r1 r2, mat_holds m1' C1 r1 /\ mat_holds m2' C2 r2 /\ mat_le lR C1 all2 r1 r2)).
Proof.
  intros O lA lX lR H m1 m2 B1 B2 A1 A2 t C1 C2 a1 a2 b1 b2; intros. shapes. eapply wp_conseq; [apply hemm_right_ok; eauto|]. intros [] m1' [K1 _].
  eapply wp_conseq; [apply hemm_right_ok; eauto|]. intros [] m2' [K2 _].
  do 2 eexists; split; [exact K1|split; [exact K2|]]. cbv beta. intros i j Hi Hj Ht. gr H.
Qed.
Lemma trmm_left_gr : forall (O : ops) (lA lX lR : O -> O -> Prop), graded O lA lX lR -> forall ty (m1 m2 : mem O) A1 A2 t d B1 B2 C1 C2 a1 a2 b1 b2,
  unit_ok d lX lR ->
  fits ty (ext0 C1) ->
  ext0 A1 = ext1 A1 -> ext0 C1 = ext0 A1 -> ext1 A1 = ext0 B1 -> ext1 C1 = ext1 B1 ->
  mat_holds_on m1 A1 (stored t d) a1 -> mat_holds m1 B1 b1 -> mwritable C1 -> allocated m1 (mcells C1) ->
  disjoint (mcells_on A1 (stored t d)) (mcells C1) -> disjoint (mcells B1) (mcells C1) ->
  fits ty (ext0 C2) ->
  ext0 A2 = ext1 A2 -> ext0 C2 = ext0 A2 -> ext1 A2 = ext0 B2 -> ext1 C2 = ext1 B2 ->
  mat_holds_on m2 A2 (stored t d) a2 -> mat_holds m2 B2 b2 -> mwritable C2 -> allocated m2 (mcells C2) ->
  disjoint (mcells_on A2 (stored t d)) (mcells C2) -> disjoint (mcells B2) (mcells C2) ->
  same_shape B1 B2 -> same_shape A1 A2 -> same_shape C1 C2 ->
  mat_le lX B1 all2 b1 b2 -> mat_le lA A1 (stored t d) a1 a2 ->
  succeeds (triangular_matrix_product_left ty A1 t d B1 C1) m1 (fun _ m1' =>
  succeeds (triangular_matrix_product_left ty A2 t d B2 C2) m2 (fun _ m2' =>
    exists r1 r2, mat_holds m1' C1 r1 /\ mat_holds m2' C2 r2 /\ mat_le lR C1 all2 r1 r2)).
Proof.
  intros O lA lX lR H ty m1 m2 A1 A2 t d B1 B2 C1 C2 a1 a2 b1 b2 U; intros. shapes. eapply wp_conseq; [apply trmm_left_raw; eauto|]. intros [] m1' [K1 _].
  eapply wp_conseq; [apply trmm_left_raw; eauto|]. intros [] m2' [K2 _].
  do 2 eexists; split; [exact K1|split; [exact K2|]]. cbv beta. intros i j Hi Hj Ht. apply (tri_elem_gr H); try lia; intros; [gr H|apply U; auto; gr H].
Qed.
Lemma trmm_right_gr : forall (O : ops) (lA lX lR : O -> O -> Prop), graded O lA lX lR -> forall ty (m1 m2 : mem O) B1 B2 A1 A2 t d C1 C2 a1 a2 b1 b2,
  unit_ok d lX lR ->
  fits ty (ext1 C1) ->
  ext0 A1 = ext1 A1 -> ext0 C1 = ext0 B1 -> ext1 B1 = ext0 A1 -> ext1 C1 = ext1 A1 ->
  mat_holds_on m1 A1 (stored t d) a1 -> mat_holds m1 B1 b1 -> mwritable C1 -> allocated m1 (mcells C1) ->
  disjoint (mcells_on A1 (stored t d)) (mcells C1) -> disjoint (mcells B1) (mcells C1) ->
  fits ty (ext1 C2) ->
  ext0 A2 = ext1 A2 -> ext0 C2 = ext0 B2 -> ext1 B2 = ext0 A2 -> ext1 C2 = ext1 A2 ->
  mat_holds_on m2 A2 (stored t d) a2 -> mat_holds m2 B2 b2 -> mwritable C2 -> allocated m2 (mcells C2) ->
  disjoint (mcells_on A2 (stored t d)) (mcells C2) -> disjoint (mcells B2) (mcells C2) ->
  same_shape B1 B2 -> same_shape A1 A2 -> same_shape C1 C2 ->
  mat_le lX B1 all2 b1 b2 -> mat_le lA A1 (stored t d) a1 a2 ->
  succeeds (triangular_matrix_product_right ty B1 A1 t d C1) m1 (fun _ m1' =>
  succeeds (triangular_matrix_product_right ty B2 A2 t d C2) m2 (fun _ m2' =>
    exists r1 r2, mat_holds m1' C1 r1 /\ mat_holds m2' C2 r2 /\ mat_le lR C1 all2 r1 r2)).
Proof.
  intros O lA lX lR H ty m1 m2 B1 B2 A1 A2 t d C1 C2 a1 a2 b1 b2 U; intros. shapes. eapply wp_conseq; [apply trmm_right_raw; eauto|]. intros [] m1' [K1 _].
  eapply wp_conseq; [apply trmm_right_raw; eauto|]. intros [] m2' [K2 _].
  do 2 eexists; split; [exact K1|split; [exact K2|]]. cbv beta. intros i j Hi Hj Ht. assert (FL : negb (is_lower t) = is_lower (flip t)) by (destruct t; auto). rewrite FL.
  apply (tri_elem_gr H); try lia; [|intros; apply U; auto; gr H]. intros k Hk [S1 S2].
  assert (stored t d k j) by (split; [destruct t; simpl in *; lia|intros E F; apply (S2 E); auto]). gr H.
Qed.
Lemma trmm_left_inplace_gr : forall (O : ops) (lA lX lR : O -> O -> Prop), graded O lA lX lR -> forall (m1 m2 : mem O) A1 A2 t d C1 C2 a1 a2 c1 c2,
  unit_ok d lX lR ->
  ext0 A1 = ext1 A1 -> ext0 C1 = ext0 A1 ->
  mat_holds_on m1 A1 (stored t d) a1 -> mat_holds m1 C1 c1 -> mwritable C1 ->
  disjoint (mcells_on A1 (stored t d)) (mcells C1) ->
  ext0 A2 = ext1 A2 -> ext0 C2 = ext0 A2 ->
  mat_holds_on m2 A2 (stored t d) a2 -> mat_holds m2 C2 c2 -> mwritable C2 ->
  disjoint (mcells_on A2 (stored t d)) (mcells C2) ->
  same_shape C1 C2 -> same_shape A1 A2 ->
  mat_le lX C1 all2 c1 c2 -> mat_le lA A1 (stored t d) a1 a2 ->
  succeeds (triangular_matrix_left_product A1 t d C1) m1 (fun _ m1' =>
  succeeds (triangular_matrix_left_product A2 t d C2) m2 (fun _ m2' =>
    exists r1 r2, mat_holds m1' C1 r1 /\ mat_holds m2' C2 r2 /\ mat_le lR C1 all2 r1 r2)).
Proof.
  intros O lA lX lR H m1 m2 A1 A2 t d C1 C2 a1 a2 c1 c2 U; intros. shapes. eapply wp_conseq; [apply trmm_left_inplace_exact; eauto|]. intros [] m1' [K1 _].
  eapply wp_conseq; [apply trmm_left_inplace_exact; eauto|]. intros [] m2' [K2 _].
  do 2 eexists; split; [exact K1|split; [exact K2|]]. cbv beta. intros i j Hi Hj Ht. apply (added_gr H); [congruence| |].
  - apply diag_gr; [intros ->|intros; apply U; auto; gr H]. assert (stored t Explicit i i) by (split; [destruct t; simpl; lia|discriminate]). gr H.
  - intros k Hk. apply row_order_in in Hk; [|lia]. destruct Hk as (Q1 & Q2 & Q3). assert (stored t d i k) by (split; auto). gr H.
Qed.
Lemma trmm_right_inplace_gr : forall (O : ops) (lA lX lR : O -> O -> Prop), graded O lA lX lR -> forall (m1 m2 : mem O) A1 A2 t d C1 C2 a1 a2 c1 c2,
  unit_ok d lX lR ->
  ext0 A1 = ext1 A1 -> ext1 C1 = ext0 A1 ->
  mat_holds_on m1 A1 (stored t d) a1 -> mat_holds m1 C1 c1 -> mwritable C1 ->
  disjoint (mcells_on A1 (stored t d)) (mcells C1) ->
  ext0 A2 = ext1 A2 -> ext1 C2 = ext0 A2 ->
  mat_holds_on m2 A2 (stored t d) a2 -> mat_holds m2 C2 c2 -> mwritable C2 ->
  disjoint (mcells_on A2 (stored t d)) (mcells C2) ->
  same_shape C1 C2 -> same_shape A1 A2 ->
  mat_le lX C1 all2 c1 c2 -> mat_le lA A1 (stored t d) a1 a2 ->
  succeeds (triangular_matrix_right_product A1 t d C1) m1 (fun _ m1' =>
  succeeds (triangular_matrix_right_product A2 t d C2) m2 (fun _ m2' =>
    exists r1 r2, mat_holds m1' C1 r1 /\ mat_holds m2' C2 r2 /\ mat_le lR C1 all2 r1 r2)).
Proof.
  intros O lA lX lR H m1 m2 A1 A2 t d C1 C2 a1 a2 c1 c2 U; intros. shapes. eapply wp_conseq; [apply trmm_right_inplace_exact; eauto|]. intros [] m1' [K1 _].
  eapply wp_conseq; [apply trmm_right_inplace_exact; eauto|]. intros [] m2' [K2 _].
  do 2 eexists; split; [exact K1|split; [exact K2|]]. cbv beta. intros i j Hi Hj Ht. apply (added_gr H); [congruence| |].
  - apply diag_gr; [intros ->|intros; apply U; auto; gr H]. assert (stored t Explicit j j) by (split; [destruct t; simpl; lia|discriminate]). gr H.
  - intros k Hk. apply col_order_in in Hk; [|lia]. destruct Hk as (Q1 & Q2 & Q3). assert (stored t d k j) by (split; auto). gr H.
Qed.
Lemma syrk_gr : forall (O : ops) (lA lR : O -> O -> Prop), graded O lA lA lR -> forall (m1 m2 : mem O) A1 A2 C1 C2 t a1 a2 c1 c2,
  ext0 C1 = ext1 C1 -> ext0 A1 = ext0 C1 ->
  mat_holds m1 A1 a1 -> mat_holds_on m1 C1 (in_tri t) c1 -> mwritable_on C1 (in_tri t) ->
  disjoint (mcells A1) (mcells_on C1 (in_tri t)) ->
  ext0 C2 = ext1 C2 -> ext0 A2 = ext0 C2 ->
  mat_holds m2 A2 a2 -> mat_holds_on m2 C2 (in_tri t) c2 -> mwritable_on C2 (in_tri t) ->
  disjoint (mcells A2) (mcells_on C2 (in_tri t)) ->
  same_shape A1 A2 -> same_shape C1 C2 ->
  mat_le lA A1 all2 a1 a2 -> mat_le lR C1 (in_tri t) c1 c2 ->
  succeeds (symmetric_matrix_rank_k_update A1 C1 t) m1 (fun _ m1' =>
  succeeds (symmetric_matrix_rank_k_update A2 C2 t) m2 (fun _ m2' =>
    exists r1 r2, mat_holds_on m1' C1 (in_tri t) r1 /\ mat_holds_on m2' C2 (in_tri t) r2 /\ mat_le lR C1 (in_tri t) r1 r2)).
Proof.
  intros O lA lR H m1 m2 A1 A2 C1 C2 t a1 a2 c1 c2; intros. shapes. eapply wp_conseq; [apply syrk_ok; eauto|]. intros [] m1' [K1 _].
  eapply wp_conseq; [apply syrk_ok; eauto|]. intros [] m2' [K2 _].
  do 2 eexists; split; [exact K1|split; [exact K2|]]. cbv beta. intros i j Hi Hj Ht. gr H.
Qed.
Lemma herk_gr : forall (O : ops) (lA lR : O -> O -> Prop), graded O lA lA lR -> forall (m1 m2 : mem O) A1 A2 C1 C2 t a1 a2 c1 c2,
  ext0 C1 = ext1 C1 -> ext0 A1 = ext0 C1 ->
  mat_holds m1 A1 a1 -> mat_holds_on m1 C1 (in_tri t) c1 -> mwritable_on C1 (in_tri t) ->
  disjoint (mcells A1) (mcells_on C1 (in_tri t)) ->
  ext0 C2 = ext1 C2 -> ext0 A2 = ext0 C2 ->
  mat_holds m2 A2 a2 -> mat_holds_on m2 C2 (in_tri t) c2 -> mwritable_on C2 (in_tri t) ->
  disjoint (mcells A2) (mcells_on C2 (in_tri t)) ->
  same_shape A1 A2 -> same_shape C1 C2 ->
  mat_le lA A1 all2 a1 a2 -> mat_le lR C1 (in_tri t) c1 c2 ->
  succeeds (hermitian_matrix_rank_k_update A1 C1 t) m1 (fun _ m1' =>
  succeeds (hermitian_matrix_rank_k_update A2 C2 t) m2 (fun _ m2' =>
    exists r1 r2, mat_holds_on m1' C1 (in_tri t) r1 /\ mat_holds_on m2' C2 (in_tri t) r2 /\ mat_le lR C1 (in_tri t) r1 r2)).
Proof.
  intros O lA lR H m1 m2 A1 A2 C1 C2 t a1 a2 c1 c2; intros. shapes. eapply wp_conseq; [apply herk_ok; eauto|]. intros [] m1' [K1 _].
  eapply wp_conseq; [apply herk_ok; eauto|]. intros [] m2' [K2 _].
  do 2 eexists; split; [exact K1|split; [exact K2|]]. cbv beta. intros i j Hi Hj Ht. gr H.
Qed.
Lemma syr2k_gr : forall (O : ops) (lA lX lR : O -> O -> Prop), graded O lA lX lR -> forall (m1 m2 : mem O) A1 A2 B1 B2 C1 C2 t a1 a2 b1 b2 c1 c2,
  ext0 C1 = ext1 C1 -> ext0 A1 = ext0 C1 -> ext0 B1 = ext0 C1 -> ext1 B1 = ext1 A1 ->
  mat_holds m1 A1 a1 -> mat_holds m1 B1 b1 -> mat_holds_on m1 C1 (in_tri t) c1 -> mwritable_on C1 (in_tri t) ->
  disjoint (mcells A1) (mcells_on C1 (in_tri t)) -> disjoint (mcells B1) (mcells_on C1 (in_tri t)) ->
  ext0 C2 = ext1 C2 -> ext0 A2 = ext0 C2 -> ext0 B2 = ext0 C2 -> ext1 B2 = ext1 A2 ->
  mat_holds m2 A2 a2 -> mat_holds m2 B2 b2 -> mat_holds_on m2 C2 (in_tri t) c2 -> mwritable_on C2 (in_tri t) ->
  disjoint (mcells A2) (mcells_on C2 (in_tri t)) -> disjoint (mcells B2) (mcells_on C2 (in_tri t)) ->
  same_shape A1 A2 -> same_shape B1 B2 -> same_shape C1 C2 ->
  mat_le lA A1 all2 a1 a2 -> mat_le lX B1 all2 b1 b2 -> mat_le lR C1 (in_tri t) c1 c2 ->
  succeeds (symmetric_matrix_rank_2k_update A1 B1 C1 t) m1 (fun _ m1' =>
  succeeds (symmetric_matrix_rank_2k_update A2 B2 C2 t) m2 (fun _ m2' =>
    exists r1 r2, mat_holds_on m1' C1 (in_tri t) r1 /\ mat_holds_on m2' C2 (in_tri t) r2 /\ mat_le lR C1 (in_tri t) r1 r2)).
Proof.
  intros O lA lX lR H m1 m2 A1 A2 B1 B2 C1 C2 t a1 a2 b1 b2 c1 c2; intros. shapes. eapply wp_conseq; [apply syr2k_ok; eauto|]. intros [] m1' [K1 _].
  eapply wp_conseq; [apply syr2k_ok; eauto|]. intros [] m2' [K2 _].
  do 2 eexists; split; [exact K1|split; [exact K2|]]. cbv beta. intros i j Hi Hj Ht. gr H.
Qed.
Lemma her2k_gr : forall (O : ops) (lA lX lR : O -> O -> Prop), graded O lA lX lR -> forall (m1 m2 : mem O) A1 A2 B1 B2 C1 C2 t a1 a2 b1 b2 c1 c2,
  ext0 C1 = ext1 C1 -> ext0 A1 = ext0 C1 -> ext0 B1 = ext0 C1 -> ext1 B1 = ext1 A1 ->
  mat_holds m1 A1 a1 -> mat_holds m1 B1 b1 -> mat_holds_on m1 C1 (in_tri t) c1 -> mwritable_on C1 (in_tri t) ->
  disjoint (mcells A1) (mcells_on C1 (in_tri t)) -> disjoint (mcells B1) (mcells_on C1 (in_tri t)) ->
  ext0 C2 = ext1 C2 -> ext0 A2 = ext0 C2 -> ext0 B2 = ext0 C2 -> ext1 B2 = ext1 A2 ->
  mat_holds m2 A2 a2 -> mat_holds m2 B2 b2 -> mat_holds_on m2 C2 (in_tri t) c2 -> mwritable_on C2 (in_tri t) ->
  disjoint (mcells A2) (mcells_on C2 (in_tri t)) -> disjoint (mcells B2) (mcells_on C2 (in_tri t)) ->
  same_shape A1 A2 -> same_shape B1 B2 -> same_shape C1 C2 ->
  mat_le lA A1 all2 a1 a2 -> mat_le lX B1 all2 b1 b2 -> mat_le lR C1 (in_tri t) c1 c2 ->
  succeeds (hermitian_matrix_rank_2k_update A1 B1 C1 t) m1 (fun _ m1' =>
  succeeds (hermitian_matrix_rank_2k_update A2 B2 C2 t) m2 (fun _ m2' =>
    exists r1 r2, mat_holds_on m1' C1 (in_tri t) r1 /\ mat_holds_on m2' C2 (in_tri t) r2 /\ mat_le lR C1 (in_tri t) r1 r2)).
Proof.
  intros O lA lX lR H m1 m2 A1 A2 B1 B2 C1 C2 t a1 a2 b1 b2 c1 c2; intros. shapes. eapply wp_conseq; [apply her2k_ok; eauto|]. intros [] m1' [K1 _].
  eapply wp_conseq; [apply her2k_ok; eauto|]. intros [] m2' [K2 _].
  do 2 eexists; split; [exact K1|split; [exact K2|]]. cbv beta. intros i j Hi Hj Ht. gr H.
Qed.
Lemma trsv_gr : forall (O : ops) (lA lX lR : O -> O -> Prop), graded O lA lX lR -> graded_div O lA lX lR -> forall ty (m1 m2 : mem O) A1 A2 t d B1 B2 X1 X2 a1 a2 b1 b2,
  unit_ok d lR lX ->
  fits ty (ext0 A1) -> (ext0 A1 = 0 -> t = Upper -> ty <> U32) ->
  ext0 A1 = ext1 A1 -> vext B1 = ext0 A1 -> vext X1 = ext0 A1 ->
  mat_holds_on m1 A1 (stored t d) a1 -> vec_holds m1 B1 b1 -> vwritable X1 -> allocated m1 (vcells X1) ->
  disjoint (mcells_on A1 (stored t d)) (vcells X1) -> disjoint_or_aligned_v B1 X1 ->
  fits ty (ext0 A2) -> (ext0 A2 = 0 -> t = Upper -> ty <> U32) ->
  ext0 A2 = ext1 A2 -> vext B2 = ext0 A2 -> vext X2 = ext0 A2 ->
  mat_holds_on m2 A2 (stored t d) a2 -> vec_holds m2 B2 b2 -> vwritable X2 -> allocated m2 (vcells X2) ->
  disjoint (mcells_on A2 (stored t d)) (vcells X2) -> disjoint_or_aligned_v B2 X2 ->
  same_length B1 B2 -> same_shape A1 A2 -> same_length X1 X2 ->
  vec_le lR B1 b1 b2 -> mat_le lA A1 (stored t d) a1 a2 ->
  succeeds (triangular_matrix_vector_solve ty A1 t d B1 X1) m1 (fun _ m1' =>
  succeeds (triangular_matrix_vector_solve ty A2 t d B2 X2) m2 (fun _ m2' =>
    exists r1 r2, vec_holds m1' X1 r1 /\ vec_holds m2' X2 r2 /\ vec_le lX X1 r1 r2)).
Proof.
  intros O lA lX lR H HD ty m1 m2 A1 A2 t d B1 B2 X1 X2 a1 a2 b1 b2 U; intros. shapes. eapply wp_conseq; [apply trsv_subst with (a := a1) (b := b1); eauto|]. intros [] m1' [(q1 & K1 & E1) _].
  eapply wp_conseq; [apply trsv_subst with (a := a2) (b := b2); eauto|]. intros [] m2' [(q2 & K2 & E2) _].
  exists q1, q2; split; [exact K1|split; [exact K2|]]. intros i Hi. apply (@subst_gr _ _ _ _ H HD t d (ext0 A1) (ext0 A2) a1 a2 b1 b2); auto; try lia; intros; gr H.
Qed.
Lemma trsm_left_gr : forall (O : ops) (lA lX lR : O -> O -> Prop), graded O lA lX lR -> graded_div O lA lX lR -> forall ty (m1 m2 : mem O) A1 A2 t d B1 B2 X1 X2 a1 a2 b1 b2,
  unit_ok d lR lX ->
  fits ty (ext0 A1) -> (ext0 A1 = 0 -> t = Upper -> ty <> U32) ->
  ext0 A1 = ext1 A1 -> ext0 B1 = ext0 A1 -> ext0 X1 = ext0 A1 -> ext1 X1 = ext1 B1 ->
  mat_holds_on m1 A1 (stored t d) a1 -> mat_holds m1 B1 b1 -> mwritable X1 -> allocated m1 (mcells X1) ->
  disjoint (mcells_on A1 (stored t d)) (mcells X1) -> disjoint_or_aligned_m B1 X1 ->
  fits ty (ext0 A2) -> (ext0 A2 = 0 -> t = Upper -> ty <> U32) ->
  ext0 A2 = ext1 A2 -> ext0 B2 = ext0 A2 -> ext0 X2 = ext0 A2 -> ext1 X2 = ext1 B2 ->
  mat_holds_on m2 A2 (stored t d) a2 -> mat_holds m2 B2 b2 -> mwritable X2 -> allocated m2 (mcells X2) ->
  disjoint (mcells_on A2 (stored t d)) (mcells X2) -> disjoint_or_aligned_m B2 X2 ->
  same_shape B1 B2 -> same_shape A1 A2 -> same_shape X1 X2 ->
  mat_le lR B1 all2 b1 b2 -> mat_le lA A1 (stored t d) a1 a2 ->
  succeeds (triangular_matrix_matrix_left_solve ty A1 t d B1 X1) m1 (fun _ m1' =>
  succeeds (triangular_matrix_matrix_left_solve ty A2 t d B2 X2) m2 (fun _ m2' =>
    exists r1 r2, mat_holds m1' X1 r1 /\ mat_holds m2' X2 r2 /\ mat_le lX X1 all2 r1 r2)).
Proof.
  intros O lA lX lR H HD ty m1 m2 A1 A2 t d B1 B2 X1 X2 a1 a2 b1 b2 U; intros. shapes. eapply wp_conseq; [apply trsm_left_subst with (a := a1) (b := b1); eauto|]. intros [] m1' [(q1 & K1 & E1) _].
  eapply wp_conseq; [apply trsm_left_subst with (a := a2) (b := b2); eauto|]. intros [] m2' [(q2 & K2 & E2) _].
  exists q1, q2; split; [exact K1|split; [exact K2|]]. intros i j Hi Hj _.
  apply (@subst_gr _ _ _ _ H HD t d (ext0 A1) (ext0 A2) a1 a2 (fun k => b1 k j) (fun k => b2 k j) (fun k => q1 k j) (fun k => q2 k j)); auto; try lia; intros; try gr H; [apply E1|apply E2]; lia.
Qed.
Lemma trsm_right_gr : forall (O : ops) (lA lX lR : O -> O -> Prop), graded O lA lX lR -> graded_div O lA lX lR -> forall ty (m1 m2 : mem O) A1 A2 t d B1 B2 X1 X2 a1 a2 b1 b2,
  unit_ok d lR lX ->
  (t = Lower -> fits (make_signed ty) (ext0 A1)) ->
  ext0 A1 = ext1 A1 -> ext1 B1 = ext0 A1 -> ext1 X1 = ext0 A1 -> ext0 X1 = ext0 B1 ->
  mat_holds_on m1 A1 (stored t d) a1 -> mat_holds m1 B1 b1 -> mwritable X1 -> allocated m1 (mcells X1) ->
  disjoint (mcells_on A1 (stored t d)) (mcells X1) -> disjoint_or_aligned_m B1 X1 ->
  (t = Lower -> fits (make_signed ty) (ext0 A2)) ->
  ext0 A2 = ext1 A2 -> ext1 B2 = ext0 A2 -> ext1 X2 = ext0 A2 -> ext0 X2 = ext0 B2 ->
  mat_holds_on m2 A2 (stored t d) a2 -> mat_holds m2 B2 b2 -> mwritable X2 -> allocated m2 (mcells X2) ->
  disjoint (mcells_on A2 (stored t d)) (mcells X2) -> disjoint_or_aligned_m B2 X2 ->
  same_shape B1 B2 -> same_shape A1 A2 -> same_shape X1 X2 ->
  mat_le lR B1 all2 b1 b2 -> mat_le lA A1 (stored t d) a1 a2 ->
  succeeds (triangular_matrix_matrix_right_solve ty A1 t d B1 X1) m1 (fun _ m1' =>
  succeeds (triangular_matrix_matrix_right_solve ty A2 t d B2 X2) m2 (fun _ m2' =>
    exists r1 r2, mat_holds m1' X1 r1 /\ mat_holds m2' X2 r2 /\ mat_le lX X1 all2 r1 r2)).
Proof.
  intros O lA lX lR H HD ty m1 m2 A1 A2 t d B1 B2 X1 X2 a1 a2 b1 b2 U; intros. shapes. eapply wp_conseq; [apply trsm_right_subst with (a := a1) (b := b1); eauto|]. intros [] m1' [(q1 & K1 & E1) _].
  eapply wp_conseq; [apply trsm_right_subst with (a := a2) (b := b2); eauto|]. intros [] m2' [(q2 & K2 & E2) _].
  exists q1, q2; split; [exact K1|split; [exact K2|]]. intros i j Hi Hj _.
  apply (@subst_r_gr _ _ _ _ H HD t d (ext0 A1) (ext0 A2) a1 a2 (fun k => b1 i k) (fun k => b2 i k) (fun k => q1 i k) (fun k => q2 i k)); auto; try lia; intros; try gr H; [apply E1|apply E2]; lia.
Qed.

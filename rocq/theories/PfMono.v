(** Sums and products are monotone in any relation that the operations preserve. *)
From Coq Require Import List Arith ZArith Lia Bool.
From Verif Require Import Mem Scalar View Spec SpecSub SpecInp SpecMono Idx Wp Loops Sums Blas1 Blas2 Blas3
  PfBlas1 PfBlas2 PfTrmv PfTrsv PfRank PfBlas3 PfTrsm PfSub PfInplace.
Import ListNotations.
Set Implicit Arguments.
Local Open Scope sc_scope.

Section Mono.
Context {O : ops} (le : O -> O -> Prop) (H : monotone O le).

Lemma fold_le : forall l (s1 s2 : O) (f1 f2 : nat -> O), le s1 s2 -> (forall k, In k l -> le (f1 k) (f2 k)) ->
  le (fold_left (fun s k => s + f1 k) l s1) (fold_left (fun s k => s + f2 k) l s2).
Proof. induction l as [|j l IH]; simpl; auto. intros. apply IH; auto. apply (mn_add H); auto. Qed.
Lemma sum_le : forall (s1 s2 : O) lo n1 n2 f1 f2, n1 = n2 -> le s1 s2 -> (forall k, lo <= k < lo + n1 -> le (f1 k) (f2 k)) ->
  le (sum_from s1 lo n1 f1) (sum_from s2 lo n2 f2).
Proof. intros; subst. unfold sum_from. apply fold_le; auto. intros k Hk. apply in_seq in Hk. auto. Qed.
Lemma big_le : forall n1 n2 (f1 f2 : nat -> O), n1 = n2 -> (forall k, k < n1 -> le (f1 k) (f2 k)) -> le (bigsum n1 f1) (bigsum n2 f2).
Proof. intros. apply sum_le; auto. apply (mn_zero H). intros; apply H1; lia. Qed.
Lemma added_le : forall l1 l2 (s1 s2 : O) f1 f2, l1 = l2 -> le s1 s2 -> (forall k, In k l1 -> le (f1 k) (f2 k)) ->
  le (added s1 l1 f1) (added s2 l2 f2).
Proof. intros; subst. unfold added. apply fold_le; auto. Qed.
Lemma sym_le : forall t (a1 a2 : nat -> nat -> O) i k, (forall i' k', (i' = i /\ k' = k) \/ (i' = k /\ k' = i) -> in_tri t i' k' -> le (a1 i' k') (a2 i' k')) ->
  le (sym_of t a1 i k) (sym_of t a2 i k).
Proof.
  intros t a1 a2 i k K. unfold sym_of, in_tri_b. destruct t; destruct (Nat.leb_spec i k), (Nat.leb_spec k i); apply K; simpl; auto; lia.
Qed.
Lemma herm_le : forall t (a1 a2 : nat -> nat -> O) i k, (forall i' k', (i' = i /\ k' = k) \/ (i' = k /\ k' = i) -> in_tri t i' k' -> le (a1 i' k') (a2 i' k')) ->
  le (herm_of t a1 i k) (herm_of t a2 i k).
Proof.
  intros t a1 a2 i k K. unfold herm_of, in_tri_b. destruct (Nat.eqb_spec i k) as [->|N].
  - apply (mn_re H). apply K; auto. destruct t; simpl; lia.
  - destruct t; destruct (Nat.leb_spec i k), (Nat.leb_spec k i); try lia; try apply (mn_conj H); apply K; simpl; auto; lia.
Qed.
Lemma herm_raw_le : forall t (a1 a2 : nat -> nat -> O) i k, (forall i' k', (i' = i /\ k' = k) \/ (i' = k /\ k' = i) -> in_tri t i' k' -> le (a1 i' k') (a2 i' k')) ->
  le (herm_raw t a1 i k) (herm_raw t a2 i k).
Proof.
  intros t a1 a2 i k K. unfold herm_raw, in_tri_b.
  destruct t; destruct (Nat.leb_spec i k), (Nat.leb_spec k i); try lia; try apply (mn_conj H); apply K; simpl; auto; lia.
Qed.
Lemma tri_term_le : forall d (a1 a2 : nat -> nat -> O) f1 f2 i k, le (f1 i) (f2 i) -> le (f1 k) (f2 k) ->
  ((d = ImplicitUnit -> i <> k) -> le (a1 i k) (a2 i k)) -> le (tri_term d a1 f1 i k) (tri_term d a2 f2 i k).
Proof.
  intros d a1 a2 f1 f2 i k F1 F2 A. unfold tri_term. destruct (Nat.eqb_spec i k) as [->|N]; [destruct d; auto|];
  apply (mn_mul H); auto; apply A; auto; discriminate.
Qed.
Lemma tri_row_le : forall s1 s2 t d n1 n2 (a1 a2 : nat -> nat -> O) f1 f2 i, n1 = n2 -> i < n1 -> le s1 s2 ->
  (forall k, k < n1 -> le (f1 k) (f2 k)) -> (forall k, k < n1 -> stored t d i k -> le (a1 i k) (a2 i k)) ->
  le (tri_row s1 t d n1 a1 f1 i) (tri_row s2 t d n2 a2 f2 i).
Proof.
  intros s1 s2 t d n1 n2 a1 a2 f1 f2 i E Hi Hs Hf Ha. subst n2. unfold tri_row. destruct t; apply sum_le; auto; intros k Hk;
  apply tri_term_le; try apply Hf; try lia; intros K; apply Ha; try lia; split; simpl; auto; lia.
Qed.
Lemma tri_elem_le : forall t d n1 n2 i (e1 e2 : nat -> O) l1 l2, n1 = n2 -> i < n1 ->
  (forall k, k < n1 -> stored t d i k -> le (e1 k) (e2 k)) -> le l1 l2 ->
  le (tri_elem (is_lower t) d n1 i e1 l1) (tri_elem (is_lower t) d n2 i e2 l2).
Proof.
  intros t d n1 n2 i e1 e2 l1 l2 E Hi He Hl. subst n2. unfold tri_elem. destruct d; simpl; [|apply (mn_add H); auto];
  apply sum_le; auto using (mn_zero H); intros k Hk; apply He; destruct t; simpl in *; try lia; split; simpl; try lia; try discriminate.
Qed.
Lemma diag_le : forall d (p1 p2 o1 o2 : O), (d = Explicit -> le p1 p2) -> le o1 o2 -> le (times_diag d p1 o1) (times_diag d p2 o2).
Proof. intros. destruct d; simpl; auto. Qed.
Lemma row_order_in : forall t n i k, i < n -> In k (row_order t n i) -> k < n /\ k <> i /\ in_tri t i k.
Proof. intros t n i k Hi K. destruct t; simpl in K; [apply in_rev in K|]; apply in_seq in K; simpl; lia. Qed.
Lemma col_order_in : forall t n j k, j < n -> In k (col_order t n j) -> k < n /\ k <> j /\ in_tri t k j.
Proof. intros t n i k Hi K. destruct t; simpl in K; apply in_seq in K; simpl; lia. Qed.

Ltac mono := first [assumption | apply (mn_zero H) | apply (mn_add H); mono | apply (mn_mul H); mono | apply (mn_conj H); mono | apply (mn_re H); mono
  | apply sum_le; [congruence || lia|mono|intros; mono] | apply big_le; [congruence || lia|intros; mono]
  | match goal with K : vec_le le _ ?f ?g |- le (?f _) (?g _) => apply K; lia end
  | match goal with K : mat_le le _ _ ?f ?g |- le (?f _ _) (?g _ _) => apply K; [lia|lia|first [exact I | assumption | lia | match goal with |- in_tri ?t _ _ => destruct t; simpl in *; lia end]] end
  | match goal with |- le (if ?b then _ else _) _ => destruct b; mono end
  | apply sym_le; intros i' k' [[-> ->]|[-> ->]] ?; mono
  | apply herm_le; intros i' k' [[-> ->]|[-> ->]] ?; mono
  | apply herm_raw_le; intros i' k' [[-> ->]|[-> ->]] ?; mono].
Ltac shapes := repeat match goal with K : same_shape _ _ |- _ => destruct K | K : same_length _ _ |- _ => unfold same_length in K end.

Lemma scale_le : forall (m1 m2 : mem O) (alpha1 alpha2 : O) x1 x2 f1 f2,
  vec_holds m1 x1 f1 -> vwritable x1 ->
  vec_holds m2 x2 f2 -> vwritable x2 ->
  same_length x1 x2 ->
  vec_le le x1 f1 f2 -> le alpha1 alpha2 ->
  succeeds (scale_1 alpha1 x1) m1 (fun _ m1' =>
  succeeds (scale_1 alpha2 x2) m2 (fun _ m2' =>
    exists r1 r2, vec_holds m1' x1 r1 /\ vec_holds m2' x2 r2 /\ vec_le le x1 r1 r2)).
Proof.
  intros m1 m2 alpha1 alpha2 x1 x2 f1 f2; intros. shapes. eapply wp_conseq; [apply scale_1_ok; eauto|]. intros [] m1' [K1 _].
  eapply wp_conseq; [apply scale_1_ok; eauto|]. intros [] m2' [K2 _].
  do 2 eexists; split; [exact K1|split; [exact K2|]]. cbv beta. intros i Hi. mono.
Qed.
Lemma scale_2_le : forall (m1 m2 : mem O) (alpha1 alpha2 : O) x1 x2 f1 f2,
  mat_holds m1 x1 f1 -> mwritable x1 ->
  mat_holds m2 x2 f2 -> mwritable x2 ->
  same_shape x1 x2 ->
  mat_le le x1 all2 f1 f2 -> le alpha1 alpha2 ->
  succeeds (scale_2 alpha1 x1) m1 (fun _ m1' =>
  succeeds (scale_2 alpha2 x2) m2 (fun _ m2' =>
    exists r1 r2, mat_holds m1' x1 r1 /\ mat_holds m2' x2 r2 /\ mat_le le x1 all2 r1 r2)).
Proof.
  intros m1 m2 alpha1 alpha2 x1 x2 f1 f2; intros. shapes. eapply wp_conseq; [apply scale_2_ok; eauto|]. intros [] m1' [K1 _].
  eapply wp_conseq; [apply scale_2_ok; eauto|]. intros [] m2' [K2 _].
  do 2 eexists; split; [exact K1|split; [exact K2|]]. cbv beta. intros i j Hi Hj Ht. mono.
Qed.
Lemma add_le : forall (m1 m2 : mem O) x1 x2 y1 y2 z1 z2 f1 f2 g1 g2,
  vext x1 = vext z1 -> vext y1 = vext z1 -> vec_holds m1 x1 f1 -> vec_holds m1 y1 g1 ->
  vwritable z1 -> allocated m1 (vcells z1) -> disjoint_or_aligned_v x1 z1 -> disjoint_or_aligned_v y1 z1 ->
  vext x2 = vext z2 -> vext y2 = vext z2 -> vec_holds m2 x2 f2 -> vec_holds m2 y2 g2 ->
  vwritable z2 -> allocated m2 (vcells z2) -> disjoint_or_aligned_v x2 z2 -> disjoint_or_aligned_v y2 z2 ->
  same_length x1 x2 -> same_length y1 y2 -> same_length z1 z2 ->
  vec_le le x1 f1 f2 -> vec_le le y1 g1 g2 ->
  succeeds (add_1 x1 y1 z1) m1 (fun _ m1' =>
  succeeds (add_1 x2 y2 z2) m2 (fun _ m2' =>
    exists r1 r2, vec_holds m1' z1 r1 /\ vec_holds m2' z2 r2 /\ vec_le le z1 r1 r2)).
Proof.
  intros m1 m2 x1 x2 y1 y2 z1 z2 f1 f2 g1 g2; intros. shapes. eapply wp_conseq; [apply add_1_ok; eauto|]. intros [] m1' [K1 _].
  eapply wp_conseq; [apply add_1_ok; eauto|]. intros [] m2' [K2 _].
  do 2 eexists; split; [exact K1|split; [exact K2|]]. cbv beta. intros i Hi. mono.
Qed.
Lemma add_2_le : forall (m1 m2 : mem O) x1 x2 y1 y2 z1 z2 f1 f2 g1 g2,
  ext0 x1 = ext0 z1 -> ext1 x1 = ext1 z1 -> ext0 y1 = ext0 z1 -> ext1 y1 = ext1 z1 ->
  mat_holds m1 x1 f1 -> mat_holds m1 y1 g1 ->
  mwritable z1 -> allocated m1 (mcells z1) -> disjoint_or_aligned_m x1 z1 -> disjoint_or_aligned_m y1 z1 ->
  ext0 x2 = ext0 z2 -> ext1 x2 = ext1 z2 -> ext0 y2 = ext0 z2 -> ext1 y2 = ext1 z2 ->
  mat_holds m2 x2 f2 -> mat_holds m2 y2 g2 ->
  mwritable z2 -> allocated m2 (mcells z2) -> disjoint_or_aligned_m x2 z2 -> disjoint_or_aligned_m y2 z2 ->
  same_shape x1 x2 -> same_shape y1 y2 -> same_shape z1 z2 ->
  mat_le le x1 all2 f1 f2 -> mat_le le y1 all2 g1 g2 ->
  succeeds (add_2 x1 y1 z1) m1 (fun _ m1' =>
  succeeds (add_2 x2 y2 z2) m2 (fun _ m2' =>
    exists r1 r2, mat_holds m1' z1 r1 /\ mat_holds m2' z2 r2 /\ mat_le le z1 all2 r1 r2)).
Proof.
  intros m1 m2 x1 x2 y1 y2 z1 z2 f1 f2 g1 g2; intros. shapes. eapply wp_conseq; [apply add_2_ok; eauto|]. intros [] m1' [K1 _].
  eapply wp_conseq; [apply add_2_ok; eauto|]. intros [] m2' [K2 _].
  do 2 eexists; split; [exact K1|split; [exact K2|]]. cbv beta. intros i j Hi Hj Ht. mono.
Qed.
Lemma dot_le : forall (m1 m2 : mem O) x1 x2 y1 y2 f1 f2 g1 g2 (init1 init2 : O),
  vext x1 = vext y1 -> vec_holds m1 x1 f1 -> vec_holds m1 y1 g1 ->
  vext x2 = vext y2 -> vec_holds m2 x2 f2 -> vec_holds m2 y2 g2 ->
  same_length x1 x2 -> same_length y1 y2 ->
  vec_le le x1 f1 f2 -> vec_le le y1 g1 g2 -> le init1 init2 ->
  succeeds (dot x1 y1 init1) m1 (fun r1 _ => succeeds (dot x2 y2 init2) m2 (fun r2 _ => le r1 r2)).
Proof.
  intros m1 m2 x1 x2 y1 y2 f1 f2 g1 g2 init1 init2; intros. shapes. eapply wp_conseq; [apply dot_ok; eauto|]. intros r1 m1' [-> _].
  eapply wp_conseq; [apply dot_ok; eauto|]. intros r2 m2' [-> _]. mono.
Qed.
Lemma dotc_le : forall (m1 m2 : mem O) fix_nc nc x1 x2 y1 y2 f1 f2 g1 g2 (init1 init2 : O),
  (forall v : O, conj (conj v) = v) -> (nc = true -> forall v : O, conj v = v) ->
  vext x1 = vext y1 -> vec_holds m1 x1 f1 -> vec_holds m1 y1 g1 ->
  vext x2 = vext y2 -> vec_holds m2 x2 f2 -> vec_holds m2 y2 g2 ->
  same_length x1 x2 -> same_length y1 y2 ->
  vec_le le x1 f1 f2 -> vec_le le y1 g1 g2 -> le init1 init2 ->
  succeeds (dotc fix_nc nc x1 y1 init1) m1 (fun r1 _ => succeeds (dotc fix_nc nc x2 y2 init2) m2 (fun r2 _ => le r1 r2)).
Proof.
  intros m1 m2 fix_nc nc x1 x2 y1 y2 f1 f2 g1 g2 init1 init2; intros. shapes. eapply wp_conseq; [apply dotc_ok; eauto|]. intros r1 m1' [-> _].
  eapply wp_conseq; [apply dotc_ok; eauto|]. intros r2 m2' [-> _]. mono.
Qed.
Lemma gemv_le : forall (m1 m2 : mem O) A1 A2 x1 x2 y1 y2 a1 a2 f1 f2,
  vext x1 = ext1 A1 -> vext y1 = ext0 A1 ->
  mat_holds m1 A1 a1 -> vec_holds m1 x1 f1 -> vwritable y1 -> allocated m1 (vcells y1) ->
  disjoint (mcells A1) (vcells y1) -> disjoint (vcells x1) (vcells y1) ->
  vext x2 = ext1 A2 -> vext y2 = ext0 A2 ->
  mat_holds m2 A2 a2 -> vec_holds m2 x2 f2 -> vwritable y2 -> allocated m2 (vcells y2) ->
  disjoint (mcells A2) (vcells y2) -> disjoint (vcells x2) (vcells y2) ->
  same_length x1 x2 -> same_shape A1 A2 -> same_length y1 y2 ->
  vec_le le x1 f1 f2 -> mat_le le A1 all2 a1 a2 ->
  succeeds (matrix_vector_product A1 x1 y1) m1 (fun _ m1' =>
  succeeds (matrix_vector_product A2 x2 y2) m2 (fun _ m2' =>
    exists r1 r2, vec_holds m1' y1 r1 /\ vec_holds m2' y2 r2 /\ vec_le le y1 r1 r2)).
Proof.
  intros m1 m2 A1 A2 x1 x2 y1 y2 a1 a2 f1 f2; intros. shapes. eapply wp_conseq; [apply gemv_ok; eauto|]. intros [] m1' [K1 _].
  eapply wp_conseq; [apply gemv_ok; eauto|]. intros [] m2' [K2 _].
  do 2 eexists; split; [exact K1|split; [exact K2|]]. cbv beta. intros i Hi. mono.
Qed.
Lemma gemv_upd_le : forall (m1 m2 : mem O) A1 A2 x1 x2 y1 y2 z1 z2 a1 a2 f1 f2 g1 g2,
  vext x1 = ext1 A1 -> vext y1 = ext0 A1 -> vext z1 = ext0 A1 ->
  mat_holds m1 A1 a1 -> vec_holds m1 x1 f1 -> vec_holds m1 y1 g1 -> vwritable z1 -> allocated m1 (vcells z1) ->
  disjoint (mcells A1) (vcells z1) -> disjoint (vcells x1) (vcells z1) -> disjoint_or_aligned_v y1 z1 ->
  vext x2 = ext1 A2 -> vext y2 = ext0 A2 -> vext z2 = ext0 A2 ->
  mat_holds m2 A2 a2 -> vec_holds m2 x2 f2 -> vec_holds m2 y2 g2 -> vwritable z2 -> allocated m2 (vcells z2) ->
  disjoint (mcells A2) (vcells z2) -> disjoint (vcells x2) (vcells z2) -> disjoint_or_aligned_v y2 z2 ->
  same_length x1 x2 -> same_length y1 y2 -> same_shape A1 A2 -> same_length z1 z2 ->
  vec_le le x1 f1 f2 -> vec_le le y1 g1 g2 -> mat_le le A1 all2 a1 a2 ->
  succeeds (matrix_vector_product_upd A1 x1 y1 z1) m1 (fun _ m1' =>
  succeeds (matrix_vector_product_upd A2 x2 y2 z2) m2 (fun _ m2' =>
    exists r1 r2, vec_holds m1' z1 r1 /\ vec_holds m2' z2 r2 /\ vec_le le z1 r1 r2)).
Proof.
  intros m1 m2 A1 A2 x1 x2 y1 y2 z1 z2 a1 a2 f1 f2 g1 g2; intros. shapes. eapply wp_conseq; [apply gemv_upd_ok with (g := g1); eauto|]. intros [] m1' [K1 _].
  eapply wp_conseq; [apply gemv_upd_ok with (g := g2); eauto|]. intros [] m2' [K2 _].
  do 2 eexists; split; [exact K1|split; [exact K2|]]. cbv beta. intros i Hi. mono.
Qed.
Lemma symv_le : forall (m1 m2 : mem O) A1 A2 t x1 x2 y1 y2 a1 a2 f1 f2,
  ext0 A1 = ext1 A1 -> vext x1 = ext1 A1 -> vext y1 = ext0 A1 ->
  mat_holds_on m1 A1 (in_tri t) a1 -> vec_holds m1 x1 f1 -> vwritable y1 -> allocated m1 (vcells y1) ->
  disjoint (mcells_on A1 (in_tri t)) (vcells y1) -> disjoint (vcells x1) (vcells y1) ->
  ext0 A2 = ext1 A2 -> vext x2 = ext1 A2 -> vext y2 = ext0 A2 ->
  mat_holds_on m2 A2 (in_tri t) a2 -> vec_holds m2 x2 f2 -> vwritable y2 -> allocated m2 (vcells y2) ->
  disjoint (mcells_on A2 (in_tri t)) (vcells y2) -> disjoint (vcells x2) (vcells y2) ->
  same_length x1 x2 -> same_shape A1 A2 -> same_length y1 y2 ->
  vec_le le x1 f1 f2 -> mat_le le A1 (in_tri t) a1 a2 ->
  succeeds (symmetric_matrix_vector_product A1 t x1 y1) m1 (fun _ m1' =>
  succeeds (symmetric_matrix_vector_product A2 t x2 y2) m2 (fun _ m2' =>
    exists r1 r2, vec_holds m1' y1 r1 /\ vec_holds m2' y2 r2 /\ vec_le le y1 r1 r2)).
Proof.
  intros m1 m2 A1 A2 t x1 x2 y1 y2 a1 a2 f1 f2; intros. shapes. eapply wp_conseq; [apply symv_ok; eauto|]. intros [] m1' [K1 _].
  eapply wp_conseq; [apply symv_ok; eauto|]. intros [] m2' [K2 _].
  do 2 eexists; split; [exact K1|split; [exact K2|]]. cbv beta. intros i Hi. mono.
Qed.
Lemma symv_upd_le : forall (m1 m2 : mem O) A1 A2 t x1 x2 y1 y2 z1 z2 a1 a2 f1 f2 g1 g2,
  ext0 A1 = ext1 A1 -> vext x1 = ext1 A1 -> vext y1 = ext0 A1 -> vext z1 = ext0 A1 ->
  mat_holds_on m1 A1 (in_tri t) a1 -> vec_holds m1 x1 f1 -> vec_holds m1 y1 g1 -> vwritable z1 -> allocated m1 (vcells z1) ->
  disjoint (mcells_on A1 (in_tri t)) (vcells z1) -> disjoint (vcells x1) (vcells z1) -> disjoint_or_aligned_v y1 z1 ->
  ext0 A2 = ext1 A2 -> vext x2 = ext1 A2 -> vext y2 = ext0 A2 -> vext z2 = ext0 A2 ->
  mat_holds_on m2 A2 (in_tri t) a2 -> vec_holds m2 x2 f2 -> vec_holds m2 y2 g2 -> vwritable z2 -> allocated m2 (vcells z2) ->
  disjoint (mcells_on A2 (in_tri t)) (vcells z2) -> disjoint (vcells x2) (vcells z2) -> disjoint_or_aligned_v y2 z2 ->
  same_length x1 x2 -> same_length y1 y2 -> same_shape A1 A2 -> same_length z1 z2 ->
  vec_le le x1 f1 f2 -> vec_le le y1 g1 g2 -> mat_le le A1 (in_tri t) a1 a2 ->
  succeeds (symmetric_matrix_vector_product_upd A1 t x1 y1 z1) m1 (fun _ m1' =>
  succeeds (symmetric_matrix_vector_product_upd A2 t x2 y2 z2) m2 (fun _ m2' =>
    exists r1 r2, vec_holds m1' z1 r1 /\ vec_holds m2' z2 r2 /\ vec_le le z1 r1 r2)).
Proof.
  intros m1 m2 A1 A2 t x1 x2 y1 y2 z1 z2 a1 a2 f1 f2 g1 g2; intros. shapes. eapply wp_conseq; [apply symv_upd_ok with (g := g1); eauto|]. intros [] m1' [K1 _].
  eapply wp_conseq; [apply symv_upd_ok with (g := g2); eauto|]. intros [] m2' [K2 _].
  do 2 eexists; split; [exact K1|split; [exact K2|]]. cbv beta. intros i Hi. mono.
Qed.
Lemma hemv_le : forall (m1 m2 : mem O) A1 A2 t x1 x2 y1 y2 a1 a2 f1 f2,
  ext0 A1 = ext1 A1 -> vext x1 = ext1 A1 -> vext y1 = ext0 A1 ->
  mat_holds_on m1 A1 (in_tri t) a1 -> vec_holds m1 x1 f1 -> vwritable y1 -> allocated m1 (vcells y1) ->
  disjoint (mcells_on A1 (in_tri t)) (vcells y1) -> disjoint (vcells x1) (vcells y1) ->
  ext0 A2 = ext1 A2 -> vext x2 = ext1 A2 -> vext y2 = ext0 A2 ->
  mat_holds_on m2 A2 (in_tri t) a2 -> vec_holds m2 x2 f2 -> vwritable y2 -> allocated m2 (vcells y2) ->
  disjoint (mcells_on A2 (in_tri t)) (vcells y2) -> disjoint (vcells x2) (vcells y2) ->
  same_length x1 x2 -> same_shape A1 A2 -> same_length y1 y2 ->
  vec_le le x1 f1 f2 -> mat_le le A1 (in_tri t) a1 a2 ->
  succeeds (hermitian_matrix_vector_product A1 t x1 y1) m1 (fun _ m1' =>
  succeeds (hermitian_matrix_vector_product A2 t x2 y2) m2 (fun _ m2' =>
    exists r1 r2, vec_holds m1' y1 r1 /\ vec_holds m2' y2 r2 /\ vec_le le y1 r1 r2)).
Proof.
  intros m1 m2 A1 A2 t x1 x2 y1 y2 a1 a2 f1 f2; intros. shapes. eapply wp_conseq; [apply hemv_ok; eauto|]. intros [] m1' [K1 _].
  eapply wp_conseq; [apply hemv_ok; eauto|]. intros [] m2' [K2 _].
  do 2 eexists; split; [exact K1|split; [exact K2|]]. cbv beta. intros i Hi. mono.
Qed.
Lemma hemv_upd_le : forall (m1 m2 : mem O) A1 A2 t x1 x2 y1 y2 z1 z2 a1 a2 f1 f2 g1 g2,
  ext0 A1 = ext1 A1 -> vext x1 = ext1 A1 -> vext y1 = ext0 A1 -> vext z1 = ext0 A1 ->
  mat_holds_on m1 A1 (in_tri t) a1 -> vec_holds m1 x1 f1 -> vec_holds m1 y1 g1 -> vwritable z1 -> allocated m1 (vcells z1) ->
  disjoint (mcells_on A1 (in_tri t)) (vcells z1) -> disjoint (vcells x1) (vcells z1) -> disjoint_or_aligned_v y1 z1 ->
  ext0 A2 = ext1 A2 -> vext x2 = ext1 A2 -> vext y2 = ext0 A2 -> vext z2 = ext0 A2 ->
  mat_holds_on m2 A2 (in_tri t) a2 -> vec_holds m2 x2 f2 -> vec_holds m2 y2 g2 -> vwritable z2 -> allocated m2 (vcells z2) ->
  disjoint (mcells_on A2 (in_tri t)) (vcells z2) -> disjoint (vcells x2) (vcells z2) -> disjoint_or_aligned_v y2 z2 ->
  same_length x1 x2 -> same_length y1 y2 -> same_shape A1 A2 -> same_length z1 z2 ->
  vec_le le x1 f1 f2 -> vec_le le y1 g1 g2 -> mat_le le A1 (in_tri t) a1 a2 ->
  succeeds (hermitian_matrix_vector_product_upd A1 t x1 y1 z1) m1 (fun _ m1' =>
  succeeds (hermitian_matrix_vector_product_upd A2 t x2 y2 z2) m2 (fun _ m2' =>
    exists r1 r2, vec_holds m1' z1 r1 /\ vec_holds m2' z2 r2 /\ vec_le le z1 r1 r2)).
Proof.
  intros m1 m2 A1 A2 t x1 x2 y1 y2 z1 z2 a1 a2 f1 f2 g1 g2; intros. shapes. eapply wp_conseq; [apply hemv_upd_ok with (g := g1); eauto|]. intros [] m1' [K1 _].
  eapply wp_conseq; [apply hemv_upd_ok with (g := g2); eauto|]. intros [] m2' [K2 _].
  do 2 eexists; split; [exact K1|split; [exact K2|]]. cbv beta. intros i Hi. mono.
Qed.
Lemma trmv_le : forall (m1 m2 : mem O) A1 A2 t d x1 x2 y1 y2 a1 a2 f1 f2,
  ext0 A1 = ext1 A1 -> vext x1 = ext1 A1 -> vext y1 = ext0 A1 ->
  mat_holds_on m1 A1 (stored t d) a1 -> vec_holds m1 x1 f1 -> vwritable y1 -> allocated m1 (vcells y1) ->
  disjoint (mcells_on A1 (stored t d)) (vcells y1) -> disjoint (vcells x1) (vcells y1) ->
  ext0 A2 = ext1 A2 -> vext x2 = ext1 A2 -> vext y2 = ext0 A2 ->
  mat_holds_on m2 A2 (stored t d) a2 -> vec_holds m2 x2 f2 -> vwritable y2 -> allocated m2 (vcells y2) ->
  disjoint (mcells_on A2 (stored t d)) (vcells y2) -> disjoint (vcells x2) (vcells y2) ->
  same_length x1 x2 -> same_shape A1 A2 -> same_length y1 y2 ->
  vec_le le x1 f1 f2 -> mat_le le A1 (stored t d) a1 a2 ->
  succeeds (triangular_matrix_vector_product A1 t d x1 y1) m1 (fun _ m1' =>
  succeeds (triangular_matrix_vector_product A2 t d x2 y2) m2 (fun _ m2' =>
    exists r1 r2, vec_holds m1' y1 r1 /\ vec_holds m2' y2 r2 /\ vec_le le y1 r1 r2)).
Proof.
  intros m1 m2 A1 A2 t d x1 x2 y1 y2 a1 a2 f1 f2; intros. shapes. eapply wp_conseq; [apply trmv_ok; eauto|]. intros [] m1' [K1 _].
  eapply wp_conseq; [apply trmv_ok; eauto|]. intros [] m2' [K2 _].
  do 2 eexists; split; [exact K1|split; [exact K2|]]. cbv beta. intros i Hi. apply tri_row_le; try lia; try mono; intros; mono.
Qed.
Lemma trmv_upd_le : forall (m1 m2 : mem O) A1 A2 t d x1 x2 y1 y2 z1 z2 a1 a2 f1 f2 g1 g2,
  ext0 A1 = ext1 A1 -> vext x1 = ext1 A1 -> vext y1 = ext0 A1 -> vext z1 = ext0 A1 ->
  mat_holds_on m1 A1 (stored t d) a1 -> vec_holds m1 x1 f1 -> vec_holds m1 y1 g1 -> vwritable z1 -> allocated m1 (vcells z1) ->
  disjoint (mcells_on A1 (stored t d)) (vcells z1) -> disjoint (vcells x1) (vcells z1) -> disjoint_or_aligned_v y1 z1 ->
  ext0 A2 = ext1 A2 -> vext x2 = ext1 A2 -> vext y2 = ext0 A2 -> vext z2 = ext0 A2 ->
  mat_holds_on m2 A2 (stored t d) a2 -> vec_holds m2 x2 f2 -> vec_holds m2 y2 g2 -> vwritable z2 -> allocated m2 (vcells z2) ->
  disjoint (mcells_on A2 (stored t d)) (vcells z2) -> disjoint (vcells x2) (vcells z2) -> disjoint_or_aligned_v y2 z2 ->
  same_length x1 x2 -> same_length y1 y2 -> same_shape A1 A2 -> same_length z1 z2 ->
  vec_le le x1 f1 f2 -> vec_le le y1 g1 g2 -> mat_le le A1 (stored t d) a1 a2 ->
  succeeds (triangular_matrix_vector_product_upd A1 t d x1 y1 z1) m1 (fun _ m1' =>
  succeeds (triangular_matrix_vector_product_upd A2 t d x2 y2 z2) m2 (fun _ m2' =>
    exists r1 r2, vec_holds m1' z1 r1 /\ vec_holds m2' z2 r2 /\ vec_le le z1 r1 r2)).
Proof.
  intros m1 m2 A1 A2 t d x1 x2 y1 y2 z1 z2 a1 a2 f1 f2 g1 g2; intros. shapes. eapply wp_conseq; [apply trmv_upd_ok with (g := g1); eauto|]. intros [] m1' [K1 _].
  eapply wp_conseq; [apply trmv_upd_ok with (g := g2); eauto|]. intros [] m2' [K2 _].
  do 2 eexists; split; [exact K1|split; [exact K2|]]. cbv beta. intros i Hi. apply tri_row_le; try lia; try mono; intros; mono.
Qed.
Lemma trmv_inplace_le : forall (m1 m2 : mem O) A1 A2 t d y1 y2 a1 a2 f1 f2,
  ext0 A1 = ext1 A1 -> vext y1 = ext0 A1 ->
  mat_holds_on m1 A1 (stored t d) a1 -> vec_holds m1 y1 f1 -> vwritable y1 ->
  disjoint (mcells_on A1 (stored t d)) (vcells y1) ->
  ext0 A2 = ext1 A2 -> vext y2 = ext0 A2 ->
  mat_holds_on m2 A2 (stored t d) a2 -> vec_holds m2 y2 f2 -> vwritable y2 ->
  disjoint (mcells_on A2 (stored t d)) (vcells y2) ->
  same_length y1 y2 -> same_shape A1 A2 ->
  vec_le le y1 f1 f2 -> mat_le le A1 (stored t d) a1 a2 ->
  succeeds (triangular_matrix_vector_product_inplace A1 t d y1) m1 (fun _ m1' =>
  succeeds (triangular_matrix_vector_product_inplace A2 t d y2) m2 (fun _ m2' =>
    exists r1 r2, vec_holds m1' y1 r1 /\ vec_holds m2' y2 r2 /\ vec_le le y1 r1 r2)).
Proof.
  intros m1 m2 A1 A2 t d y1 y2 a1 a2 f1 f2; intros. shapes. eapply wp_conseq; [apply trmv_inplace_exact; eauto|]. intros [] m1' [K1 _].
  eapply wp_conseq; [apply trmv_inplace_exact; eauto|]. intros [] m2' [K2 _].
  do 2 eexists; split; [exact K1|split; [exact K2|]]. cbv beta. intros i Hi. apply added_le; [congruence| |].
  - apply diag_le; [intros ->|mono]. assert (stored t Explicit i i) by (split; [destruct t; simpl; lia|discriminate]). mono.
  - intros k Hk. apply row_order_in in Hk; [|lia]. destruct Hk as (Q1 & Q2 & Q3). assert (stored t d i k) by (split; auto). mono.
Qed.
Lemma ger_le : forall (m1 m2 : mem O) x1 x2 y1 y2 A1 A2 a1 a2 f1 f2 g1 g2,
  vext x1 = ext0 A1 -> vext y1 = ext1 A1 ->
  mat_holds m1 A1 a1 -> vec_holds m1 x1 f1 -> vec_holds m1 y1 g1 -> mwritable A1 ->
  disjoint (vcells x1) (mcells A1) -> disjoint (vcells y1) (mcells A1) ->
  vext x2 = ext0 A2 -> vext y2 = ext1 A2 ->
  mat_holds m2 A2 a2 -> vec_holds m2 x2 f2 -> vec_holds m2 y2 g2 -> mwritable A2 ->
  disjoint (vcells x2) (mcells A2) -> disjoint (vcells y2) (mcells A2) ->
  same_length x1 x2 -> same_length y1 y2 -> same_shape A1 A2 ->
  vec_le le x1 f1 f2 -> vec_le le y1 g1 g2 -> mat_le le A1 all2 a1 a2 ->
  succeeds (matrix_rank_1_update x1 y1 A1) m1 (fun _ m1' =>
  succeeds (matrix_rank_1_update x2 y2 A2) m2 (fun _ m2' =>
    exists r1 r2, mat_holds m1' A1 r1 /\ mat_holds m2' A2 r2 /\ mat_le le A1 all2 r1 r2)).
Proof.
  intros m1 m2 x1 x2 y1 y2 A1 A2 a1 a2 f1 f2 g1 g2; intros. shapes. eapply wp_conseq; [apply ger_ok; eauto|]. intros [] m1' [K1 _].
  eapply wp_conseq; [apply ger_ok; eauto|]. intros [] m2' [K2 _].
  do 2 eexists; split; [exact K1|split; [exact K2|]]. cbv beta. intros i j Hi Hj Ht. mono.
Qed.
Lemma gerc_le : forall (m1 m2 : mem O) fix_nc nc x1 x2 y1 y2 A1 A2 a1 a2 f1 f2 g1 g2,
  (forall v : O, conj (conj v) = v) -> (nc = true -> forall v : O, conj v = v) ->
  vext x1 = ext0 A1 -> vext y1 = ext1 A1 ->
  mat_holds m1 A1 a1 -> vec_holds m1 x1 f1 -> vec_holds m1 y1 g1 -> mwritable A1 ->
  disjoint (vcells x1) (mcells A1) -> disjoint (vcells y1) (mcells A1) ->
  vext x2 = ext0 A2 -> vext y2 = ext1 A2 ->
  mat_holds m2 A2 a2 -> vec_holds m2 x2 f2 -> vec_holds m2 y2 g2 -> mwritable A2 ->
  disjoint (vcells x2) (mcells A2) -> disjoint (vcells y2) (mcells A2) ->
  same_length x1 x2 -> same_length y1 y2 -> same_shape A1 A2 ->
  vec_le le x1 f1 f2 -> vec_le le y1 g1 g2 -> mat_le le A1 all2 a1 a2 ->
  succeeds (matrix_rank_1_update_c fix_nc nc x1 y1 A1) m1 (fun _ m1' =>
  succeeds (matrix_rank_1_update_c fix_nc nc x2 y2 A2) m2 (fun _ m2' =>
    exists r1 r2, mat_holds m1' A1 r1 /\ mat_holds m2' A2 r2 /\ mat_le le A1 all2 r1 r2)).
Proof.
  intros m1 m2 fix_nc nc x1 x2 y1 y2 A1 A2 a1 a2 f1 f2 g1 g2; intros. shapes. eapply wp_conseq; [apply gerc_ok; eauto|]. intros [] m1' [K1 _].
  eapply wp_conseq; [apply gerc_ok; eauto|]. intros [] m2' [K2 _].
  do 2 eexists; split; [exact K1|split; [exact K2|]]. cbv beta. intros i j Hi Hj Ht. mono.
Qed.
Lemma syr_le : forall (m1 m2 : mem O) x1 x2 A1 A2 t a1 a2 f1 f2,
  ext0 A1 = ext1 A1 -> vext x1 = ext0 A1 ->
  mat_holds_on m1 A1 (in_tri t) a1 -> vec_holds m1 x1 f1 -> mwritable_on A1 (in_tri t) ->
  disjoint (vcells x1) (mcells_on A1 (in_tri t)) ->
  ext0 A2 = ext1 A2 -> vext x2 = ext0 A2 ->
  mat_holds_on m2 A2 (in_tri t) a2 -> vec_holds m2 x2 f2 -> mwritable_on A2 (in_tri t) ->
  disjoint (vcells x2) (mcells_on A2 (in_tri t)) ->
  same_length x1 x2 -> same_shape A1 A2 ->
  vec_le le x1 f1 f2 -> mat_le le A1 (in_tri t) a1 a2 ->
  succeeds (symmetric_matrix_rank_1_update x1 A1 t) m1 (fun _ m1' =>
  succeeds (symmetric_matrix_rank_1_update x2 A2 t) m2 (fun _ m2' =>
    exists r1 r2, mat_holds_on m1' A1 (in_tri t) r1 /\ mat_holds_on m2' A2 (in_tri t) r2 /\ mat_le le A1 (in_tri t) r1 r2)).
Proof.
  intros m1 m2 x1 x2 A1 A2 t a1 a2 f1 f2; intros. shapes. eapply wp_conseq; [apply syr_ok; eauto|]. intros [] m1' [K1 _].
  eapply wp_conseq; [apply syr_ok; eauto|]. intros [] m2' [K2 _].
  do 2 eexists; split; [exact K1|split; [exact K2|]]. cbv beta. intros i j Hi Hj Ht. mono.
Qed.
Lemma syr_alpha_le : forall (m1 m2 : mem O) (alpha1 alpha2 : O) x1 x2 A1 A2 t a1 a2 f1 f2,
  ext0 A1 = ext1 A1 -> vext x1 = ext0 A1 ->
  mat_holds_on m1 A1 (in_tri t) a1 -> vec_holds m1 x1 f1 -> mwritable_on A1 (in_tri t) ->
  disjoint (vcells x1) (mcells_on A1 (in_tri t)) ->
  ext0 A2 = ext1 A2 -> vext x2 = ext0 A2 ->
  mat_holds_on m2 A2 (in_tri t) a2 -> vec_holds m2 x2 f2 -> mwritable_on A2 (in_tri t) ->
  disjoint (vcells x2) (mcells_on A2 (in_tri t)) ->
  same_length x1 x2 -> same_shape A1 A2 ->
  vec_le le x1 f1 f2 -> mat_le le A1 (in_tri t) a1 a2 -> le alpha1 alpha2 ->
  succeeds (symmetric_matrix_rank_1_update_alpha alpha1 x1 A1 t) m1 (fun _ m1' =>
  succeeds (symmetric_matrix_rank_1_update_alpha alpha2 x2 A2 t) m2 (fun _ m2' =>
    exists r1 r2, mat_holds_on m1' A1 (in_tri t) r1 /\ mat_holds_on m2' A2 (in_tri t) r2 /\ mat_le le A1 (in_tri t) r1 r2)).
Proof.
  intros m1 m2 alpha1 alpha2 x1 x2 A1 A2 t a1 a2 f1 f2; intros. shapes. eapply wp_conseq; [apply syr_alpha_ok; eauto|]. intros [] m1' [K1 _].
  eapply wp_conseq; [apply syr_alpha_ok; eauto|]. intros [] m2' [K2 _].
  do 2 eexists; split; [exact K1|split; [exact K2|]]. cbv beta. intros i j Hi Hj Ht. mono.
Qed.
Lemma syr2_le : forall (m1 m2 : mem O) x1 x2 y1 y2 A1 A2 t a1 a2 f1 f2 g1 g2,
  ext0 A1 = ext1 A1 -> vext x1 = ext0 A1 -> vext y1 = ext0 A1 ->
  mat_holds_on m1 A1 (in_tri t) a1 -> vec_holds m1 x1 f1 -> vec_holds m1 y1 g1 -> mwritable_on A1 (in_tri t) ->
  disjoint (vcells x1) (mcells_on A1 (in_tri t)) -> disjoint (vcells y1) (mcells_on A1 (in_tri t)) ->
  ext0 A2 = ext1 A2 -> vext x2 = ext0 A2 -> vext y2 = ext0 A2 ->
  mat_holds_on m2 A2 (in_tri t) a2 -> vec_holds m2 x2 f2 -> vec_holds m2 y2 g2 -> mwritable_on A2 (in_tri t) ->
  disjoint (vcells x2) (mcells_on A2 (in_tri t)) -> disjoint (vcells y2) (mcells_on A2 (in_tri t)) ->
  same_length x1 x2 -> same_length y1 y2 -> same_shape A1 A2 ->
  vec_le le x1 f1 f2 -> vec_le le y1 g1 g2 -> mat_le le A1 (in_tri t) a1 a2 ->
  succeeds (symmetric_matrix_rank_2_update x1 y1 A1 t) m1 (fun _ m1' =>
  succeeds (symmetric_matrix_rank_2_update x2 y2 A2 t) m2 (fun _ m2' =>
    exists r1 r2, mat_holds_on m1' A1 (in_tri t) r1 /\ mat_holds_on m2' A2 (in_tri t) r2 /\ mat_le le A1 (in_tri t) r1 r2)).
Proof.
  intros m1 m2 x1 x2 y1 y2 A1 A2 t a1 a2 f1 f2 g1 g2; intros. shapes. eapply wp_conseq; [apply syr2_ok; eauto|]. intros [] m1' [K1 _].
  eapply wp_conseq; [apply syr2_ok; eauto|]. intros [] m2' [K2 _].
  do 2 eexists; split; [exact K1|split; [exact K2|]]. cbv beta. intros i j Hi Hj Ht. mono.
Qed.
Lemma her_le : forall (m1 m2 : mem O) x1 x2 A1 A2 t a1 a2 f1 f2,
  ext0 A1 = ext1 A1 -> vext x1 = ext0 A1 ->
  mat_holds_on m1 A1 (in_tri t) a1 -> vec_holds m1 x1 f1 -> mwritable_on A1 (in_tri t) ->
  disjoint (vcells x1) (mcells_on A1 (in_tri t)) ->
  ext0 A2 = ext1 A2 -> vext x2 = ext0 A2 ->
  mat_holds_on m2 A2 (in_tri t) a2 -> vec_holds m2 x2 f2 -> mwritable_on A2 (in_tri t) ->
  disjoint (vcells x2) (mcells_on A2 (in_tri t)) ->
  same_length x1 x2 -> same_shape A1 A2 ->
  vec_le le x1 f1 f2 -> mat_le le A1 (in_tri t) a1 a2 ->
  succeeds (hermitian_matrix_rank_1_update x1 A1 t) m1 (fun _ m1' =>
  succeeds (hermitian_matrix_rank_1_update x2 A2 t) m2 (fun _ m2' =>
    exists r1 r2, mat_holds_on m1' A1 (in_tri t) r1 /\ mat_holds_on m2' A2 (in_tri t) r2 /\ mat_le le A1 (in_tri t) r1 r2)).
Proof.
  intros m1 m2 x1 x2 A1 A2 t a1 a2 f1 f2; intros. shapes. eapply wp_conseq; [apply her_ok; eauto|]. intros [] m1' [K1 _].
  eapply wp_conseq; [apply her_ok; eauto|]. intros [] m2' [K2 _].
  do 2 eexists; split; [exact K1|split; [exact K2|]]. cbv beta. intros i j Hi Hj Ht. mono.
Qed.
Lemma her_alpha_le : forall (m1 m2 : mem O) (alpha1 alpha2 : O) x1 x2 A1 A2 t a1 a2 f1 f2,
  ext0 A1 = ext1 A1 -> vext x1 = ext0 A1 ->
  mat_holds_on m1 A1 (in_tri t) a1 -> vec_holds m1 x1 f1 -> mwritable_on A1 (in_tri t) ->
  disjoint (vcells x1) (mcells_on A1 (in_tri t)) ->
  ext0 A2 = ext1 A2 -> vext x2 = ext0 A2 ->
  mat_holds_on m2 A2 (in_tri t) a2 -> vec_holds m2 x2 f2 -> mwritable_on A2 (in_tri t) ->
  disjoint (vcells x2) (mcells_on A2 (in_tri t)) ->
  same_length x1 x2 -> same_shape A1 A2 ->
  vec_le le x1 f1 f2 -> mat_le le A1 (in_tri t) a1 a2 -> le alpha1 alpha2 ->
  succeeds (hermitian_matrix_rank_1_update_alpha alpha1 x1 A1 t) m1 (fun _ m1' =>
  succeeds (hermitian_matrix_rank_1_update_alpha alpha2 x2 A2 t) m2 (fun _ m2' =>
    exists r1 r2, mat_holds_on m1' A1 (in_tri t) r1 /\ mat_holds_on m2' A2 (in_tri t) r2 /\ mat_le le A1 (in_tri t) r1 r2)).
Proof.
  intros m1 m2 alpha1 alpha2 x1 x2 A1 A2 t a1 a2 f1 f2; intros. shapes. eapply wp_conseq; [apply her_alpha_ok; eauto|]. intros [] m1' [K1 _].
  eapply wp_conseq; [apply her_alpha_ok; eauto|]. intros [] m2' [K2 _].
  do 2 eexists; split; [exact K1|split; [exact K2|]]. cbv beta. intros i j Hi Hj Ht. mono.
Qed.
Lemma her2_le : forall (m1 m2 : mem O) x1 x2 y1 y2 A1 A2 t a1 a2 f1 f2 g1 g2,
  ext0 A1 = ext1 A1 -> vext x1 = ext0 A1 -> vext y1 = ext0 A1 ->
  mat_holds_on m1 A1 (in_tri t) a1 -> vec_holds m1 x1 f1 -> vec_holds m1 y1 g1 -> mwritable_on A1 (in_tri t) ->
  disjoint (vcells x1) (mcells_on A1 (in_tri t)) -> disjoint (vcells y1) (mcells_on A1 (in_tri t)) ->
  ext0 A2 = ext1 A2 -> vext x2 = ext0 A2 -> vext y2 = ext0 A2 ->
  mat_holds_on m2 A2 (in_tri t) a2 -> vec_holds m2 x2 f2 -> vec_holds m2 y2 g2 -> mwritable_on A2 (in_tri t) ->
  disjoint (vcells x2) (mcells_on A2 (in_tri t)) -> disjoint (vcells y2) (mcells_on A2 (in_tri t)) ->
  same_length x1 x2 -> same_length y1 y2 -> same_shape A1 A2 ->
  vec_le le x1 f1 f2 -> vec_le le y1 g1 g2 -> mat_le le A1 (in_tri t) a1 a2 ->
  succeeds (hermitian_matrix_rank_2_update x1 y1 A1 t) m1 (fun _ m1' =>
  succeeds (hermitian_matrix_rank_2_update x2 y2 A2 t) m2 (fun _ m2' =>
    exists r1 r2, mat_holds_on m1' A1 (in_tri t) r1 /\ mat_holds_on m2' A2 (in_tri t) r2 /\ mat_le le A1 (in_tri t) r1 r2)).
Proof.
  intros m1 m2 x1 x2 y1 y2 A1 A2 t a1 a2 f1 f2 g1 g2; intros. shapes. eapply wp_conseq; [apply her2_ok; eauto|]. intros [] m1' [K1 _].
  eapply wp_conseq; [apply her2_ok; eauto|]. intros [] m2' [K2 _].
  do 2 eexists; split; [exact K1|split; [exact K2|]]. cbv beta. intros i j Hi Hj Ht. mono.
Qed.
Lemma gemm_le : forall (m1 m2 : mem O) A1 A2 B1 B2 C1 C2 a1 a2 b1 b2,
  ext0 C1 = ext0 A1 -> ext1 A1 = ext0 B1 -> ext1 C1 = ext1 B1 ->
  mat_holds m1 A1 a1 -> mat_holds m1 B1 b1 -> mwritable C1 -> allocated m1 (mcells C1) ->
  disjoint (mcells A1) (mcells C1) -> disjoint (mcells B1) (mcells C1) ->
  ext0 C2 = ext0 A2 -> ext1 A2 = ext0 B2 -> ext1 C2 = ext1 B2 ->
  mat_holds m2 A2 a2 -> mat_holds m2 B2 b2 -> mwritable C2 -> allocated m2 (mcells C2) ->
  disjoint (mcells A2) (mcells C2) -> disjoint (mcells B2) (mcells C2) ->
  same_shape A1 A2 -> same_shape B1 B2 -> same_shape C1 C2 ->
  mat_le le A1 all2 a1 a2 -> mat_le le B1 all2 b1 b2 ->
  succeeds (matrix_product A1 B1 C1) m1 (fun _ m1' =>
  succeeds (matrix_product A2 B2 C2) m2 (fun _ m2' =>
    exists r1 r2, mat_holds m1' C1 r1 /\ mat_holds m2' C2 r2 /\ mat_le le C1 all2 r1 r2)).
Proof.
  intros m1 m2 A1 A2 B1 B2 C1 C2 a1 a2 b1 b2; intros. shapes. eapply wp_conseq; [apply gemm_ok; eauto|]. intros [] m1' [K1 _].
  eapply wp_conseq; [apply gemm_ok; eauto|]. intros [] m2' [K2 _].
  do 2 eexists; split; [exact K1|split; [exact K2|]]. cbv beta. intros i j Hi Hj Ht. mono.
Qed.
Lemma gemm_upd_le : forall (m1 m2 : mem O) A1 A2 B1 B2 E1 E2 C1 C2 a1 a2 b1 b2 e1 e2,
  ext0 C1 = ext0 A1 -> ext1 A1 = ext0 B1 -> ext1 C1 = ext1 B1 -> ext0 E1 = ext0 C1 -> ext1 E1 = ext1 C1 ->
  mat_holds m1 A1 a1 -> mat_holds m1 B1 b1 -> mat_holds m1 E1 e1 -> mwritable C1 -> allocated m1 (mcells C1) ->
  disjoint (mcells A1) (mcells C1) -> disjoint (mcells B1) (mcells C1) -> disjoint_or_aligned_m E1 C1 ->
  ext0 C2 = ext0 A2 -> ext1 A2 = ext0 B2 -> ext1 C2 = ext1 B2 -> ext0 E2 = ext0 C2 -> ext1 E2 = ext1 C2 ->
  mat_holds m2 A2 a2 -> mat_holds m2 B2 b2 -> mat_holds m2 E2 e2 -> mwritable C2 -> allocated m2 (mcells C2) ->
  disjoint (mcells A2) (mcells C2) -> disjoint (mcells B2) (mcells C2) -> disjoint_or_aligned_m E2 C2 ->
  same_shape A1 A2 -> same_shape B1 B2 -> same_shape E1 E2 -> same_shape C1 C2 ->
  mat_le le A1 all2 a1 a2 -> mat_le le B1 all2 b1 b2 -> mat_le le E1 all2 e1 e2 ->
  succeeds (matrix_product_upd A1 B1 E1 C1) m1 (fun _ m1' =>
  succeeds (matrix_product_upd A2 B2 E2 C2) m2 (fun _ m2' =>
    exists r1 r2, mat_holds m1' C1 r1 /\ mat_holds m2' C2 r2 /\ mat_le le C1 all2 r1 r2)).
Proof.
  intros m1 m2 A1 A2 B1 B2 E1 E2 C1 C2 a1 a2 b1 b2 e1 e2; intros. shapes. eapply wp_conseq; [apply gemm_upd_ok with (e := e1); eauto|]. intros [] m1' [K1 _].
  eapply wp_conseq; [apply gemm_upd_ok with (e := e2); eauto|]. intros [] m2' [K2 _].
  do 2 eexists; split; [exact K1|split; [exact K2|]]. cbv beta. intros i j Hi Hj Ht. mono.
Qed.
Lemma symm_left_le : forall (m1 m2 : mem O) A1 A2 t B1 B2 C1 C2 a1 a2 b1 b2,
  ext0 A1 = ext1 A1 -> ext0 C1 = ext0 A1 -> ext1 A1 = ext0 B1 -> ext1 C1 = ext1 B1 ->
  mat_holds_on m1 A1 (in_tri t) a1 -> mat_holds m1 B1 b1 -> mwritable C1 -> allocated m1 (mcells C1) ->
  disjoint (mcells_on A1 (in_tri t)) (mcells C1) -> disjoint (mcells B1) (mcells C1) ->
  ext0 A2 = ext1 A2 -> ext0 C2 = ext0 A2 -> ext1 A2 = ext0 B2 -> ext1 C2 = ext1 B2 ->
  mat_holds_on m2 A2 (in_tri t) a2 -> mat_holds m2 B2 b2 -> mwritable C2 -> allocated m2 (mcells C2) ->
  disjoint (mcells_on A2 (in_tri t)) (mcells C2) -> disjoint (mcells B2) (mcells C2) ->
  same_shape B1 B2 -> same_shape A1 A2 -> same_shape C1 C2 ->
  mat_le le B1 all2 b1 b2 -> mat_le le A1 (in_tri t) a1 a2 ->
  succeeds (symmetric_matrix_product_left A1 t B1 C1) m1 (fun _ m1' =>
  succeeds (symmetric_matrix_product_left A2 t B2 C2) m2 (fun _ m2' =>
    exists r1 r2, mat_holds m1' C1 r1 /\ mat_holds m2' C2 r2 /\ mat_le le C1 all2 r1 r2)).
Proof.
  intros m1 m2 A1 A2 t B1 B2 C1 C2 a1 a2 b1 b2; intros. shapes. eapply wp_conseq; [apply symm_left_ok; eauto|]. intros [] m1' [K1 _].
  eapply wp_conseq; [apply symm_left_ok; eauto|]. intros [] m2' [K2 _].
  do 2 eexists; split; [exact K1|split; [exact K2|]]. cbv beta. intros i j Hi Hj Ht. mono.
Qed.
Lemma symm_right_le : forall (m1 m2 : mem O) B1 B2 A1 A2 t C1 C2 a1 a2 b1 b2,
  ext0 A1 = ext1 A1 -> ext0 C1 = ext0 B1 -> ext1 B1 = ext0 A1 -> ext1 C1 = ext1 A1 ->
  mat_holds_on m1 A1 (in_tri t) a1 -> mat_holds m1 B1 b1 -> mwritable C1 -> allocated m1 (mcells C1) ->
  disjoint (mcells_on A1 (in_tri t)) (mcells C1) -> disjoint (mcells B1) (mcells C1) ->
  ext0 A2 = ext1 A2 -> ext0 C2 = ext0 B2 -> ext1 B2 = ext0 A2 -> ext1 C2 = ext1 A2 ->
  mat_holds_on m2 A2 (in_tri t) a2 -> mat_holds m2 B2 b2 -> mwritable C2 -> allocated m2 (mcells C2) ->
  disjoint (mcells_on A2 (in_tri t)) (mcells C2) -> disjoint (mcells B2) (mcells C2) ->
  same_shape B1 B2 -> same_shape A1 A2 -> same_shape C1 C2 ->
  mat_le le B1 all2 b1 b2 -> mat_le le A1 (in_tri t) a1 a2 ->
  succeeds (symmetric_matrix_product_right B1 A1 t C1) m1 (fun _ m1' =>
  succeeds (symmetric_matrix_product_right B2 A2 t C2) m2 (fun _ m2' =>
    exists r1 r2, mat_holds m1' C1 r1 /\ mat_holds m2' C2 r2 /\ mat_le le C1 all2 r1 r2)).
Proof.
  intros m1 m2 B1 B2 A1 A2 t C1 C2 a1 a2 b1 b2; intros. shapes. eapply wp_conseq; [apply symm_right_ok; eauto|]. intros [] m1' [K1 _].
  eapply wp_conseq; [apply symm_right_ok; eauto|]. intros [] m2' [K2 _].
  do 2 eexists; split; [exact K1|split; [exact K2|]]. cbv beta. intros i j Hi Hj Ht. mono.
Qed.
Lemma hemm_left_le : forall (m1 m2 : mem O) A1 A2 t B1 B2 C1 C2 a1 a2 b1 b2,
  ext0 A1 = ext1 A1 -> ext0 C1 = ext0 A1 -> ext1 A1 = ext0 B1 -> ext1 C1 = ext1 B1 ->
  mat_holds_on m1 A1 (in_tri t) a1 -> mat_holds m1 B1 b1 -> mwritable C1 -> allocated m1 (mcells C1) ->
  disjoint (mcells_on A1 (in_tri t)) (mcells C1) -> disjoint (mcells B1) (mcells C1) ->
  ext0 A2 = ext1 A2 -> ext0 C2 = ext0 A2 -> ext1 A2 = ext0 B2 -> ext1 C2 = ext1 B2 ->
  mat_holds_on m2 A2 (in_tri t) a2 -> mat_holds m2 B2 b2 -> mwritable C2 -> allocated m2 (mcells C2) ->
  disjoint (mcells_on A2 (in_tri t)) (mcells C2) -> disjoint (mcells B2) (mcells C2) ->
  same_shape B1 B2 -> same_shape A1 A2 -> same_shape C1 C2 ->
  mat_le le B1 all2 b1 b2 -> mat_le le A1 (in_tri t) a1 a2 ->
  succeeds (hermitian_matrix_product_left A1 t B1 C1) m1 (fun _ m1' =>
  succeeds (hermitian_matrix_product_left A2 t B2 C2) m2 (fun _ m2' =>
    exists r1 r2, mat_holds m1' C1 r1 /\ mat_holds m2' C2 r2 /\ mat_le le C1 all2 r1 r2)).
Proof.
  intros m1 m2 A1 A2 t B1 B2 C1 C2 a1 a2 b1 b2; intros. shapes. eapply wp_conseq; [apply hemm_left_ok; eauto|]. intros [] m1' [K1 _].
  eapply wp_conseq; [apply hemm_left_ok; eauto|]. intros [] m2' [K2 _].
  do 2 eexists; split; [exact K1|split; [exact K2|]]. cbv beta. intros i j Hi Hj Ht. mono.
Qed.
Lemma hemm_right_le : forall (m1 m2 : mem O) B1 B2 A1 A2 t C1 C2 a1 a2 b1 b2,
  ext0 A1 = ext1 A1 -> ext0 C1 = ext0 B1 -> ext1 B1 = ext0 A1 -> ext1 C1 = ext1 A1 ->
  mat_holds_on m1 A1 (in_tri t) a1 -> mat_holds m1 B1 b1 -> mwritable C1 -> allocated m1 (mcells C1) ->
  disjoint (mcells_on A1 (in_tri t)) (mcells C1) -> disjoint (mcells B1) (mcells C1) ->
  ext0 A2 = ext1 A2 -> ext0 C2 = ext0 B2 -> ext1 B2 = ext0 A2 -> ext1 C2 = ext1 A2 ->
  mat_holds_on m2 A2 (in_tri t) a2 -> mat_holds m2 B2 b2 -> mwritable C2 -> allocated m2 (mcells C2) ->
  disjoint (mcells_on A2 (in_tri t)) (mcells C2) -> disjoint (mcells B2) (mcells C2) ->
  same_shape B1 B2 -> same_shape A1 A2 -> same_shape C1 C2 ->
  mat_le le B1 all2 b1 b2 -> mat_le le A1 (in_tri t) a1 a2 ->
  succeeds (hermitian_matrix_product_right B1 A1 t C1) m1 (fun _ m1' =>
  succeeds (hermitian_matrix_product_right B2 A2 t C2) m2 (fun _ m2' =>
    exists r1 r2, mat_holds m1' C1 r1 /\ mat_holds m2' C2 r2 /\ mat_le le C1 all2 r1 r2)).
Proof.
  intros m1 m2 B1 B2 A1 A2 t C1 C2 a1 a2 b1 b2; intros. shapes. eapply wp_conseq; [apply hemm_right_ok; eauto|]. intros [] m1' [K1 _].
  eapply wp_conseq; [apply hemm_right_ok; eauto|]. intros [] m2' [K2 _].
  do 2 eexists; split; [exact K1|split; [exact K2|]]. cbv beta. intros i j Hi Hj Ht. mono.
Qed.
Lemma trmm_left_le : forall ty (m1 m2 : mem O) A1 A2 t d B1 B2 C1 C2 a1 a2 b1 b2,
  fits ty (ext0 C1) ->
  ext0 A1 = ext1 A1 -> ext0 C1 = ext0 A1 -> ext1 A1 = ext0 B1 -> ext1 C1 = ext1 B1 ->
  mat_holds_on m1 A1 (stored t d) a1 -> mat_holds m1 B1 b1 -> mwritable C1 -> allocated m1 (mcells C1) ->
  disjoint (mcells_on A1 (stored t d)) (mcells C1) -> disjoint (mcells B1) (mcells C1) ->
  fits ty (ext0 C2) ->
  ext0 A2 = ext1 A2 -> ext0 C2 = ext0 A2 -> ext1 A2 = ext0 B2 -> ext1 C2 = ext1 B2 ->
  mat_holds_on m2 A2 (stored t d) a2 -> mat_holds m2 B2 b2 -> mwritable C2 -> allocated m2 (mcells C2) ->
  disjoint (mcells_on A2 (stored t d)) (mcells C2) -> disjoint (mcells B2) (mcells C2) ->
  same_shape B1 B2 -> same_shape A1 A2 -> same_shape C1 C2 ->
  mat_le le B1 all2 b1 b2 -> mat_le le A1 (stored t d) a1 a2 ->
  succeeds (triangular_matrix_product_left ty A1 t d B1 C1) m1 (fun _ m1' =>
  succeeds (triangular_matrix_product_left ty A2 t d B2 C2) m2 (fun _ m2' =>
    exists r1 r2, mat_holds m1' C1 r1 /\ mat_holds m2' C2 r2 /\ mat_le le C1 all2 r1 r2)).
Proof.
  intros ty m1 m2 A1 A2 t d B1 B2 C1 C2 a1 a2 b1 b2; intros. shapes. eapply wp_conseq; [apply trmm_left_raw; eauto|]. intros [] m1' [K1 _].
  eapply wp_conseq; [apply trmm_left_raw; eauto|]. intros [] m2' [K2 _].
  do 2 eexists; split; [exact K1|split; [exact K2|]]. cbv beta. intros i j Hi Hj Ht. apply tri_elem_le; try lia; intros; mono.
Qed.
Lemma trmm_right_le : forall ty (m1 m2 : mem O) B1 B2 A1 A2 t d C1 C2 a1 a2 b1 b2,
  fits ty (ext1 C1) ->
  ext0 A1 = ext1 A1 -> ext0 C1 = ext0 B1 -> ext1 B1 = ext0 A1 -> ext1 C1 = ext1 A1 ->
  mat_holds_on m1 A1 (stored t d) a1 -> mat_holds m1 B1 b1 -> mwritable C1 -> allocated m1 (mcells C1) ->
  disjoint (mcells_on A1 (stored t d)) (mcells C1) -> disjoint (mcells B1) (mcells C1) ->
  fits ty (ext1 C2) ->
  ext0 A2 = ext1 A2 -> ext0 C2 = ext0 B2 -> ext1 B2 = ext0 A2 -> ext1 C2 = ext1 A2 ->
  mat_holds_on m2 A2 (stored t d) a2 -> mat_holds m2 B2 b2 -> mwritable C2 -> allocated m2 (mcells C2) ->
  disjoint (mcells_on A2 (stored t d)) (mcells C2) -> disjoint (mcells B2) (mcells C2) ->
  same_shape B1 B2 -> same_shape A1 A2 -> same_shape C1 C2 ->
  mat_le le B1 all2 b1 b2 -> mat_le le A1 (stored t d) a1 a2 ->
  succeeds (triangular_matrix_product_right ty B1 A1 t d C1) m1 (fun _ m1' =>
  succeeds (triangular_matrix_product_right ty B2 A2 t d C2) m2 (fun _ m2' =>
    exists r1 r2, mat_holds m1' C1 r1 /\ mat_holds m2' C2 r2 /\ mat_le le C1 all2 r1 r2)).
Proof.
  intros ty m1 m2 B1 B2 A1 A2 t d C1 C2 a1 a2 b1 b2; intros. shapes. eapply wp_conseq; [apply trmm_right_raw; eauto|]. intros [] m1' [K1 _].
  eapply wp_conseq; [apply trmm_right_raw; eauto|]. intros [] m2' [K2 _].
  do 2 eexists; split; [exact K1|split; [exact K2|]]. cbv beta. intros i j Hi Hj Ht. assert (FL : negb (is_lower t) = is_lower (flip t)) by (destruct t; auto). rewrite FL.
  apply tri_elem_le; try lia; [|mono]. intros k Hk [S1 S2].
  assert (stored t d k j) by (split; [destruct t; simpl in *; lia|intros E F; apply (S2 E); auto]). mono.
Qed.
Lemma trmm_left_inplace_le : forall (m1 m2 : mem O) A1 A2 t d C1 C2 a1 a2 c1 c2,
  ext0 A1 = ext1 A1 -> ext0 C1 = ext0 A1 ->
  mat_holds_on m1 A1 (stored t d) a1 -> mat_holds m1 C1 c1 -> mwritable C1 ->
  disjoint (mcells_on A1 (stored t d)) (mcells C1) ->
  ext0 A2 = ext1 A2 -> ext0 C2 = ext0 A2 ->
  mat_holds_on m2 A2 (stored t d) a2 -> mat_holds m2 C2 c2 -> mwritable C2 ->
  disjoint (mcells_on A2 (stored t d)) (mcells C2) ->
  same_shape C1 C2 -> same_shape A1 A2 ->
  mat_le le C1 all2 c1 c2 -> mat_le le A1 (stored t d) a1 a2 ->
  succeeds (triangular_matrix_left_product A1 t d C1) m1 (fun _ m1' =>
  succeeds (triangular_matrix_left_product A2 t d C2) m2 (fun _ m2' =>
    exists r1 r2, mat_holds m1' C1 r1 /\ mat_holds m2' C2 r2 /\ mat_le le C1 all2 r1 r2)).
Proof.
  intros m1 m2 A1 A2 t d C1 C2 a1 a2 c1 c2; intros. shapes. eapply wp_conseq; [apply trmm_left_inplace_exact; eauto|]. intros [] m1' [K1 _].
  eapply wp_conseq; [apply trmm_left_inplace_exact; eauto|]. intros [] m2' [K2 _].
  do 2 eexists; split; [exact K1|split; [exact K2|]]. cbv beta. intros i j Hi Hj Ht. apply added_le; [congruence| |].
  - apply diag_le; [intros ->|mono]. assert (stored t Explicit i i) by (split; [destruct t; simpl; lia|discriminate]). mono.
  - intros k Hk. apply row_order_in in Hk; [|lia]. destruct Hk as (Q1 & Q2 & Q3). assert (stored t d i k) by (split; auto). mono.
Qed.
Lemma trmm_right_inplace_le : forall (m1 m2 : mem O) A1 A2 t d C1 C2 a1 a2 c1 c2,
  ext0 A1 = ext1 A1 -> ext1 C1 = ext0 A1 ->
  mat_holds_on m1 A1 (stored t d) a1 -> mat_holds m1 C1 c1 -> mwritable C1 ->
  disjoint (mcells_on A1 (stored t d)) (mcells C1) ->
  ext0 A2 = ext1 A2 -> ext1 C2 = ext0 A2 ->
  mat_holds_on m2 A2 (stored t d) a2 -> mat_holds m2 C2 c2 -> mwritable C2 ->
  disjoint (mcells_on A2 (stored t d)) (mcells C2) ->
  same_shape C1 C2 -> same_shape A1 A2 ->
  mat_le le C1 all2 c1 c2 -> mat_le le A1 (stored t d) a1 a2 ->
  succeeds (triangular_matrix_right_product A1 t d C1) m1 (fun _ m1' =>
  succeeds (triangular_matrix_right_product A2 t d C2) m2 (fun _ m2' =>
    exists r1 r2, mat_holds m1' C1 r1 /\ mat_holds m2' C2 r2 /\ mat_le le C1 all2 r1 r2)).
Proof.
  intros m1 m2 A1 A2 t d C1 C2 a1 a2 c1 c2; intros. shapes. eapply wp_conseq; [apply trmm_right_inplace_exact; eauto|]. intros [] m1' [K1 _].
  eapply wp_conseq; [apply trmm_right_inplace_exact; eauto|]. intros [] m2' [K2 _].
  do 2 eexists; split; [exact K1|split; [exact K2|]]. cbv beta. intros i j Hi Hj Ht. apply added_le; [congruence| |].
  - apply diag_le; [intros ->|mono]. assert (stored t Explicit j j) by (split; [destruct t; simpl; lia|discriminate]). mono.
  - intros k Hk. apply col_order_in in Hk; [|lia]. destruct Hk as (Q1 & Q2 & Q3). assert (stored t d k j) by (split; auto). mono.
Qed.
Lemma syrk_le : forall (m1 m2 : mem O) A1 A2 C1 C2 t a1 a2 c1 c2,
  ext0 C1 = ext1 C1 -> ext0 A1 = ext0 C1 ->
  mat_holds m1 A1 a1 -> mat_holds_on m1 C1 (in_tri t) c1 -> mwritable_on C1 (in_tri t) ->
  disjoint (mcells A1) (mcells_on C1 (in_tri t)) ->
  ext0 C2 = ext1 C2 -> ext0 A2 = ext0 C2 ->
  mat_holds m2 A2 a2 -> mat_holds_on m2 C2 (in_tri t) c2 -> mwritable_on C2 (in_tri t) ->
  disjoint (mcells A2) (mcells_on C2 (in_tri t)) ->
  same_shape A1 A2 -> same_shape C1 C2 ->
  mat_le le A1 all2 a1 a2 -> mat_le le C1 (in_tri t) c1 c2 ->
  succeeds (symmetric_matrix_rank_k_update A1 C1 t) m1 (fun _ m1' =>
  succeeds (symmetric_matrix_rank_k_update A2 C2 t) m2 (fun _ m2' =>
    exists r1 r2, mat_holds_on m1' C1 (in_tri t) r1 /\ mat_holds_on m2' C2 (in_tri t) r2 /\ mat_le le C1 (in_tri t) r1 r2)).
Proof.
  intros m1 m2 A1 A2 C1 C2 t a1 a2 c1 c2; intros. shapes. eapply wp_conseq; [apply syrk_ok; eauto|]. intros [] m1' [K1 _].
  eapply wp_conseq; [apply syrk_ok; eauto|]. intros [] m2' [K2 _].
  do 2 eexists; split; [exact K1|split; [exact K2|]]. cbv beta. intros i j Hi Hj Ht. mono.
Qed.
Lemma herk_le : forall (m1 m2 : mem O) A1 A2 C1 C2 t a1 a2 c1 c2,
  ext0 C1 = ext1 C1 -> ext0 A1 = ext0 C1 ->
  mat_holds m1 A1 a1 -> mat_holds_on m1 C1 (in_tri t) c1 -> mwritable_on C1 (in_tri t) ->
  disjoint (mcells A1) (mcells_on C1 (in_tri t)) ->
  ext0 C2 = ext1 C2 -> ext0 A2 = ext0 C2 ->
  mat_holds m2 A2 a2 -> mat_holds_on m2 C2 (in_tri t) c2 -> mwritable_on C2 (in_tri t) ->
  disjoint (mcells A2) (mcells_on C2 (in_tri t)) ->
  same_shape A1 A2 -> same_shape C1 C2 ->
  mat_le le A1 all2 a1 a2 -> mat_le le C1 (in_tri t) c1 c2 ->
  succeeds (hermitian_matrix_rank_k_update A1 C1 t) m1 (fun _ m1' =>
  succeeds (hermitian_matrix_rank_k_update A2 C2 t) m2 (fun _ m2' =>
    exists r1 r2, mat_holds_on m1' C1 (in_tri t) r1 /\ mat_holds_on m2' C2 (in_tri t) r2 /\ mat_le le C1 (in_tri t) r1 r2)).
Proof.
  intros m1 m2 A1 A2 C1 C2 t a1 a2 c1 c2; intros. shapes. eapply wp_conseq; [apply herk_ok; eauto|]. intros [] m1' [K1 _].
  eapply wp_conseq; [apply herk_ok; eauto|]. intros [] m2' [K2 _].
  do 2 eexists; split; [exact K1|split; [exact K2|]]. cbv beta. intros i j Hi Hj Ht. mono.
Qed.
Lemma syr2k_le : forall (m1 m2 : mem O) A1 A2 B1 B2 C1 C2 t a1 a2 b1 b2 c1 c2,
  ext0 C1 = ext1 C1 -> ext0 A1 = ext0 C1 -> ext0 B1 = ext0 C1 -> ext1 B1 = ext1 A1 ->
  mat_holds m1 A1 a1 -> mat_holds m1 B1 b1 -> mat_holds_on m1 C1 (in_tri t) c1 -> mwritable_on C1 (in_tri t) ->
  disjoint (mcells A1) (mcells_on C1 (in_tri t)) -> disjoint (mcells B1) (mcells_on C1 (in_tri t)) ->
  ext0 C2 = ext1 C2 -> ext0 A2 = ext0 C2 -> ext0 B2 = ext0 C2 -> ext1 B2 = ext1 A2 ->
  mat_holds m2 A2 a2 -> mat_holds m2 B2 b2 -> mat_holds_on m2 C2 (in_tri t) c2 -> mwritable_on C2 (in_tri t) ->
  disjoint (mcells A2) (mcells_on C2 (in_tri t)) -> disjoint (mcells B2) (mcells_on C2 (in_tri t)) ->
  same_shape A1 A2 -> same_shape B1 B2 -> same_shape C1 C2 ->
  mat_le le A1 all2 a1 a2 -> mat_le le B1 all2 b1 b2 -> mat_le le C1 (in_tri t) c1 c2 ->
  succeeds (symmetric_matrix_rank_2k_update A1 B1 C1 t) m1 (fun _ m1' =>
  succeeds (symmetric_matrix_rank_2k_update A2 B2 C2 t) m2 (fun _ m2' =>
    exists r1 r2, mat_holds_on m1' C1 (in_tri t) r1 /\ mat_holds_on m2' C2 (in_tri t) r2 /\ mat_le le C1 (in_tri t) r1 r2)).
Proof.
  intros m1 m2 A1 A2 B1 B2 C1 C2 t a1 a2 b1 b2 c1 c2; intros. shapes. eapply wp_conseq; [apply syr2k_ok; eauto|]. intros [] m1' [K1 _].
  eapply wp_conseq; [apply syr2k_ok; eauto|]. intros [] m2' [K2 _].
  do 2 eexists; split; [exact K1|split; [exact K2|]]. cbv beta. intros i j Hi Hj Ht. mono.
Qed.
Lemma her2k_le : forall (m1 m2 : mem O) A1 A2 B1 B2 C1 C2 t a1 a2 b1 b2 c1 c2,
  ext0 C1 = ext1 C1 -> ext0 A1 = ext0 C1 -> ext0 B1 = ext0 C1 -> ext1 B1 = ext1 A1 ->
  mat_holds m1 A1 a1 -> mat_holds m1 B1 b1 -> mat_holds_on m1 C1 (in_tri t) c1 -> mwritable_on C1 (in_tri t) ->
  disjoint (mcells A1) (mcells_on C1 (in_tri t)) -> disjoint (mcells B1) (mcells_on C1 (in_tri t)) ->
  ext0 C2 = ext1 C2 -> ext0 A2 = ext0 C2 -> ext0 B2 = ext0 C2 -> ext1 B2 = ext1 A2 ->
  mat_holds m2 A2 a2 -> mat_holds m2 B2 b2 -> mat_holds_on m2 C2 (in_tri t) c2 -> mwritable_on C2 (in_tri t) ->
  disjoint (mcells A2) (mcells_on C2 (in_tri t)) -> disjoint (mcells B2) (mcells_on C2 (in_tri t)) ->
  same_shape A1 A2 -> same_shape B1 B2 -> same_shape C1 C2 ->
  mat_le le A1 all2 a1 a2 -> mat_le le B1 all2 b1 b2 -> mat_le le C1 (in_tri t) c1 c2 ->
  succeeds (hermitian_matrix_rank_2k_update A1 B1 C1 t) m1 (fun _ m1' =>
  succeeds (hermitian_matrix_rank_2k_update A2 B2 C2 t) m2 (fun _ m2' =>
    exists r1 r2, mat_holds_on m1' C1 (in_tri t) r1 /\ mat_holds_on m2' C2 (in_tri t) r2 /\ mat_le le C1 (in_tri t) r1 r2)).
Proof.
  intros m1 m2 A1 A2 B1 B2 C1 C2 t a1 a2 b1 b2 c1 c2; intros. shapes. eapply wp_conseq; [apply her2k_ok; eauto|]. intros [] m1' [K1 _].
  eapply wp_conseq; [apply her2k_ok; eauto|]. intros [] m2' [K2 _].
  do 2 eexists; split; [exact K1|split; [exact K2|]]. cbv beta. intros i j Hi Hj Ht. mono.
Qed.
End Mono.

(** Elements of results as functions of their rows and columns. *)
From Coq Require Import List Arith ZArith Lia Bool.
From Verif Require Import Mem Scalar View Spec SpecSub SpecInp SpecMono SpecUnit Idx Wp Loops Sums Blas1 Blas2 Blas3
  PfBlas1 PfBlas2 PfTrmv PfTrsv PfRank PfBlas3 PfTrsm PfSub PfInplace PfMono PfUnit.
Import ListNotations.
Set Implicit Arguments.
Local Open Scope sc_scope.

Section Help.
Context {O : ops}.
Lemma eq_graded : graded O eq eq eq.
Proof. constructor; congruence. Qed.
Lemma row_eq : forall (s1 s2 : O) t d n1 n2 a1 a2 f1 f2 i, n1 = n2 -> i < n1 -> s1 = s2 ->
  (forall k, k < n1 -> in_tri t i k -> f1 k = f2 k) -> (forall k, k < n1 -> stored t d i k -> a1 i k = a2 i k) ->
  tri_row s1 t d n1 a1 f1 i = tri_row s2 t d n2 a2 f2 i.
Proof.
  intros s1 s2 t d n1 n2 a1 a2 f1 f2 i E Hi Hs Hf Ha. subst n2 s2. unfold tri_row. destruct t; apply (sum_gr eq_graded); auto; intros k Hk;
  apply (@tri_term_gr O eq eq eq eq_graded); try (intros _ u v K; exact K); try (apply Hf; simpl; lia); intros K; apply Ha; try lia; split; simpl; auto; lia.
Qed.
Lemma diffs_eq : forall (s1 s2 : O) lo n f1 f2, s1 = s2 -> (forall k, lo <= k < lo + n -> f1 k = f2 k) -> diffs s1 lo n f1 = diffs s2 lo n f2.
Proof.
  intros s1 s2 lo n f1 f2 -> K. unfold diffs. assert (K' : forall k, In k (seq lo n) -> f1 k = f2 k) by (intros k Hk; apply in_seq in Hk; auto).
  clear K. revert s2. induction (seq lo n) as [|j l IH]; simpl; auto. intros. rewrite K' by (simpl; auto). apply IH. intros; apply K'; simpl; auto.
Qed.
Lemma tri_before : forall t i p k, in_tri t i p -> in_tri t p k -> in_tri t i k.
Proof. intros [] i p k; simpl; lia. Qed.
Lemma subst_eq : forall t d n1 n2 (a1 a2 : nat -> nat -> O) b1 b2 f1 f2 q, n1 = n2 ->
  (forall i k, i < n1 -> k < n1 -> in_tri t q i -> stored t d i k -> a1 i k = a2 i k) -> (forall i, i < n1 -> in_tri t q i -> b1 i = b2 i) ->
  (forall i, i < n1 -> f1 i = subst_value div t d n1 a1 b1 f1 i) -> (forall i, i < n2 -> f2 i = subst_value div t d n2 a2 b2 f2 i) ->
  forall i, i < n1 -> in_tri t q i -> f1 i = f2 i.
Proof.
  intros t d n1 n2 a1 a2 b1 b2 f1 f2 q E Ha Hb H1 H2. subst n2. apply (@ordered t n1 (fun i => in_tri t q i -> f1 i = f2 i)).
  intros i Hi IH Hq. rewrite H1, H2 by auto. unfold subst_value.
  assert (S : diffs (b1 i) (sub_lo t i) (sub_len t n1 i) (fun j => a1 i j * f1 j) = diffs (b2 i) (sub_lo t i) (sub_len t n1 i) (fun j => a2 i j * f2 j)).
  { apply diffs_eq; auto. intros k Hk. assert (T : in_tri t i k) by (destruct t; simpl in *; lia). rewrite IH by (auto; eapply tri_before; eauto).
    rewrite Ha; auto; [destruct t; simpl in Hk; lia|]. split; auto. intros _. destruct t; simpl in Hk; lia. }
  rewrite S. destruct d; auto. rewrite Ha; auto. split; [destruct t; simpl; lia|discriminate].
Qed.
Lemma subst_r_eq : forall t d n1 n2 (a1 a2 : nat -> nat -> O) b1 b2 f1 f2 q, n1 = n2 ->
  (forall i k, i < n1 -> k < n1 -> in_tri t k q -> stored t d i k -> a1 i k = a2 i k) -> (forall i, i < n1 -> in_tri t i q -> b1 i = b2 i) ->
  (forall i, i < n1 -> f1 i = subst_value_r t d n1 a1 b1 f1 i) -> (forall i, i < n2 -> f2 i = subst_value_r t d n2 a2 b2 f2 i) ->
  forall i, i < n1 -> in_tri t i q -> f1 i = f2 i.
Proof.
  intros t d n1 n2 a1 a2 b1 b2 f1 f2 q E Ha Hb H1 H2. subst n2. set (t' := match t with Lower => Upper | Upper => Lower end).
  apply (@ordered t' n1 (fun i => in_tri t i q -> f1 i = f2 i)).
  intros i Hi IH Hq. rewrite H1, H2 by auto. unfold subst_value_r. fold t'.
  assert (S : diffs (b1 i) (sub_lo t' i) (sub_len t' n1 i) (fun k => f1 k * a1 k i) = diffs (b2 i) (sub_lo t' i) (sub_len t' n1 i) (fun k => f2 k * a2 k i)).
  { apply diffs_eq; auto. intros k Hk. assert (T : in_tri t k i) by (unfold t' in Hk; destruct t; simpl in *; lia). rewrite IH by (auto; eapply tri_before; eauto).
    rewrite Ha; auto; [unfold t' in Hk; destruct t; simpl in Hk; lia|]. split; auto. intros _. unfold t' in Hk; destruct t; simpl in Hk; lia. }
  rewrite S. destruct d; auto. rewrite Ha; auto. split; [destruct t; simpl; lia|discriminate].
Qed.
Lemma herm_in_eq : forall t (a1 a2 : nat -> nat -> O) i1 j1 i2 j2, in_tri t i1 j1 -> in_tri t i2 j2 -> (i1 = j1 <-> i2 = j2) ->
  a1 i1 j1 = a2 i2 j2 -> herm_of t a1 i1 j1 = herm_of t a2 i2 j2.
Proof.
  intros t a1 a2 i1 j1 i2 j2 T1 T2 D E. unfold herm_of, in_tri_b. destruct (Nat.eqb_spec i1 j1) as [E1|N1], (Nat.eqb_spec i2 j2) as [E2|N2];
  try (exfalso; tauto); [subst; f_equal; auto|].
  destruct t; simpl in T1, T2; destruct (Nat.leb_spec i1 j1), (Nat.leb_spec j1 i1), (Nat.leb_spec i2 j2), (Nat.leb_spec j2 i2); auto; lia.
Qed.
End Help.

Ltac ev := first [reflexivity | assumption | match goal with K : forall k, _ -> _ = _ |- _ = _ => apply K; solve [lia | assumption] end
  | match goal with K : forall k, _ -> _ -> _ = _ |- _ = _ => apply K; solve [lia | auto] end
  | match goal with K : forall p q, _ -> _ -> _ -> _ -> _ = _ |- _ = _ => apply K; solve [lia | auto] end
  | apply (sum_gr eq_graded); [congruence || lia|ev|intros; ev] | apply (big_gr eq_graded); [congruence || lia|intros; ev]
  | apply (sym_gr eq); intros i' k' [[-> ->]|[-> ->]] ?; ev
  | solve [apply herm_in_eq; auto]
  | solve [apply (herm_gr eq_graded); intros i' k' [[-> ->]|[-> ->]] ?; ev]
  | solve [apply (herm_raw_gr eq_graded); intros i' k' [[-> ->]|[-> ->]] ?; ev]
  | match goal with |- (?x + ?y)%sc = _ => f_equal; ev | |- (?x * ?y)%sc = _ => f_equal; ev | |- conj _ = _ => f_equal; ev | |- re _ = _ => f_equal; ev end].

Section Rows.
Context {O : ops}.
Lemma scale_row : forall (m1 m2 : mem O) (alpha1 alpha2 : O) x1 x2 f1 f2,
  vec_holds m1 x1 f1 -> vwritable x1 ->
  vec_holds m2 x2 f2 -> vwritable x2 ->
  succeeds (scale_1 alpha1 x1) m1 (fun _ m1' =>
  succeeds (scale_1 alpha2 x2) m2 (fun _ m2' =>
    exists r1 r2, vec_holds m1' x1 r1 /\ vec_holds m2' x2 r2 /\
    forall i1 i2, i1 < vext x1 -> i2 < vext x2 ->
      alpha1 = alpha2 -> f1 i1 = f2 i2 ->
      r1 i1 = r2 i2)).
Proof.
  intros m1 m2 alpha1 alpha2 x1 x2 f1 f2; intros. eapply wp_conseq; [apply scale_1_ok; eauto|]. intros [] m1' [K1 _].
  eapply wp_conseq; [apply scale_1_ok; eauto|]. intros [] m2' [K2 _].
  do 2 eexists; split; [exact K1|split; [exact K2|]]. cbv beta. intros i1 i2; intros. ev.
Qed.
Lemma scale_2_row : forall (m1 m2 : mem O) (alpha1 alpha2 : O) x1 x2 f1 f2,
  mat_holds m1 x1 f1 -> mwritable x1 ->
  mat_holds m2 x2 f2 -> mwritable x2 ->
  succeeds (scale_2 alpha1 x1) m1 (fun _ m1' =>
  succeeds (scale_2 alpha2 x2) m2 (fun _ m2' =>
    exists r1 r2, mat_holds m1' x1 r1 /\ mat_holds m2' x2 r2 /\
    forall i1 i2 j1 j2, i1 < ext0 x1 -> j1 < ext1 x1 -> i2 < ext0 x2 -> j2 < ext1 x2 ->
      alpha1 = alpha2 -> f1 i1 j1 = f2 i2 j2 ->
      r1 i1 j1 = r2 i2 j2)).
Proof.
  intros m1 m2 alpha1 alpha2 x1 x2 f1 f2; intros. eapply wp_conseq; [apply scale_2_ok; eauto|]. intros [] m1' [K1 _].
  eapply wp_conseq; [apply scale_2_ok; eauto|]. intros [] m2' [K2 _].
  do 2 eexists; split; [exact K1|split; [exact K2|]]. cbv beta. intros i1 i2 j1 j2; intros. ev.
Qed.
Lemma add_row : forall (m1 m2 : mem O) x1 x2 y1 y2 z1 z2 f1 f2 g1 g2,
  vext x1 = vext z1 -> vext y1 = vext z1 -> vec_holds m1 x1 f1 -> vec_holds m1 y1 g1 ->
  vwritable z1 -> allocated m1 (vcells z1) -> disjoint_or_aligned_v x1 z1 -> disjoint_or_aligned_v y1 z1 ->
  vext x2 = vext z2 -> vext y2 = vext z2 -> vec_holds m2 x2 f2 -> vec_holds m2 y2 g2 ->
  vwritable z2 -> allocated m2 (vcells z2) -> disjoint_or_aligned_v x2 z2 -> disjoint_or_aligned_v y2 z2 ->
  succeeds (add_1 x1 y1 z1) m1 (fun _ m1' =>
  succeeds (add_1 x2 y2 z2) m2 (fun _ m2' =>
    exists r1 r2, vec_holds m1' z1 r1 /\ vec_holds m2' z2 r2 /\
    forall i1 i2, i1 < vext z1 -> i2 < vext z2 ->
      f1 i1 = f2 i2 -> g1 i1 = g2 i2 ->
      r1 i1 = r2 i2)).
Proof.
  intros m1 m2 x1 x2 y1 y2 z1 z2 f1 f2 g1 g2; intros. eapply wp_conseq; [apply add_1_ok; eauto|]. intros [] m1' [K1 _].
  eapply wp_conseq; [apply add_1_ok; eauto|]. intros [] m2' [K2 _].
  do 2 eexists; split; [exact K1|split; [exact K2|]]. cbv beta. intros i1 i2; intros. ev.
Qed.
Lemma add_2_row : forall (m1 m2 : mem O) x1 x2 y1 y2 z1 z2 f1 f2 g1 g2,
  ext0 x1 = ext0 z1 -> ext1 x1 = ext1 z1 -> ext0 y1 = ext0 z1 -> ext1 y1 = ext1 z1 ->
  mat_holds m1 x1 f1 -> mat_holds m1 y1 g1 ->
  mwritable z1 -> allocated m1 (mcells z1) -> disjoint_or_aligned_m x1 z1 -> disjoint_or_aligned_m y1 z1 ->
  ext0 x2 = ext0 z2 -> ext1 x2 = ext1 z2 -> ext0 y2 = ext0 z2 -> ext1 y2 = ext1 z2 ->
  mat_holds m2 x2 f2 -> mat_holds m2 y2 g2 ->
  mwritable z2 -> allocated m2 (mcells z2) -> disjoint_or_aligned_m x2 z2 -> disjoint_or_aligned_m y2 z2 ->
  succeeds (add_2 x1 y1 z1) m1 (fun _ m1' =>
  succeeds (add_2 x2 y2 z2) m2 (fun _ m2' =>
    exists r1 r2, mat_holds m1' z1 r1 /\ mat_holds m2' z2 r2 /\
    forall i1 i2 j1 j2, i1 < ext0 z1 -> j1 < ext1 z1 -> i2 < ext0 z2 -> j2 < ext1 z2 ->
      f1 i1 j1 = f2 i2 j2 -> g1 i1 j1 = g2 i2 j2 ->
      r1 i1 j1 = r2 i2 j2)).
Proof.
  intros m1 m2 x1 x2 y1 y2 z1 z2 f1 f2 g1 g2; intros. eapply wp_conseq; [apply add_2_ok; eauto|]. intros [] m1' [K1 _].
  eapply wp_conseq; [apply add_2_ok; eauto|]. intros [] m2' [K2 _].
  do 2 eexists; split; [exact K1|split; [exact K2|]]. cbv beta. intros i1 i2 j1 j2; intros. ev.
Qed.
Lemma gemv_row : forall (m1 m2 : mem O) A1 A2 x1 x2 y1 y2 a1 a2 f1 f2,
  vext x1 = ext1 A1 -> vext y1 = ext0 A1 ->
  mat_holds m1 A1 a1 -> vec_holds m1 x1 f1 -> vwritable y1 -> allocated m1 (vcells y1) ->
  disjoint (mcells A1) (vcells y1) -> disjoint (vcells x1) (vcells y1) ->
  vext x2 = ext1 A2 -> vext y2 = ext0 A2 ->
  mat_holds m2 A2 a2 -> vec_holds m2 x2 f2 -> vwritable y2 -> allocated m2 (vcells y2) ->
  disjoint (mcells A2) (vcells y2) -> disjoint (vcells x2) (vcells y2) ->
  succeeds (matrix_vector_product A1 x1 y1) m1 (fun _ m1' =>
  succeeds (matrix_vector_product A2 x2 y2) m2 (fun _ m2' =>
    exists r1 r2, vec_holds m1' y1 r1 /\ vec_holds m2' y2 r2 /\
    forall i1 i2, i1 < vext y1 -> i2 < vext y2 ->
      ext1 A1 = ext1 A2 -> (forall k, k < ext1 A1 -> a1 i1 k = a2 i2 k) -> (forall k, k < ext1 A1 -> f1 k = f2 k) ->
      r1 i1 = r2 i2)).
Proof.
  intros m1 m2 A1 A2 x1 x2 y1 y2 a1 a2 f1 f2; intros. eapply wp_conseq; [apply gemv_ok; eauto|]. intros [] m1' [K1 _].
  eapply wp_conseq; [apply gemv_ok; eauto|]. intros [] m2' [K2 _].
  do 2 eexists; split; [exact K1|split; [exact K2|]]. cbv beta. intros i1 i2; intros. ev.
Qed.
Lemma gemv_upd_row : forall (m1 m2 : mem O) A1 A2 x1 x2 y1 y2 z1 z2 a1 a2 f1 f2 g1 g2,
  vext x1 = ext1 A1 -> vext y1 = ext0 A1 -> vext z1 = ext0 A1 ->
  mat_holds m1 A1 a1 -> vec_holds m1 x1 f1 -> vec_holds m1 y1 g1 -> vwritable z1 -> allocated m1 (vcells z1) ->
  disjoint (mcells A1) (vcells z1) -> disjoint (vcells x1) (vcells z1) -> disjoint_or_aligned_v y1 z1 ->
  vext x2 = ext1 A2 -> vext y2 = ext0 A2 -> vext z2 = ext0 A2 ->
  mat_holds m2 A2 a2 -> vec_holds m2 x2 f2 -> vec_holds m2 y2 g2 -> vwritable z2 -> allocated m2 (vcells z2) ->
  disjoint (mcells A2) (vcells z2) -> disjoint (vcells x2) (vcells z2) -> disjoint_or_aligned_v y2 z2 ->
  succeeds (matrix_vector_product_upd A1 x1 y1 z1) m1 (fun _ m1' =>
  succeeds (matrix_vector_product_upd A2 x2 y2 z2) m2 (fun _ m2' =>
    exists r1 r2, vec_holds m1' z1 r1 /\ vec_holds m2' z2 r2 /\
    forall i1 i2, i1 < vext z1 -> i2 < vext z2 ->
      ext1 A1 = ext1 A2 -> (forall k, k < ext1 A1 -> a1 i1 k = a2 i2 k) -> (forall k, k < ext1 A1 -> f1 k = f2 k) -> g1 i1 = g2 i2 ->
      r1 i1 = r2 i2)).
Proof.
  intros m1 m2 A1 A2 x1 x2 y1 y2 z1 z2 a1 a2 f1 f2 g1 g2; intros. eapply wp_conseq; [apply gemv_upd_ok with (g := g1); eauto|]. intros [] m1' [K1 _].
  eapply wp_conseq; [apply gemv_upd_ok with (g := g2); eauto|]. intros [] m2' [K2 _].
  do 2 eexists; split; [exact K1|split; [exact K2|]]. cbv beta. intros i1 i2; intros. ev.
Qed.
Lemma symv_row : forall (m1 m2 : mem O) A1 A2 t x1 x2 y1 y2 a1 a2 f1 f2,
  ext0 A1 = ext1 A1 -> vext x1 = ext1 A1 -> vext y1 = ext0 A1 ->
  mat_holds_on m1 A1 (in_tri t) a1 -> vec_holds m1 x1 f1 -> vwritable y1 -> allocated m1 (vcells y1) ->
  disjoint (mcells_on A1 (in_tri t)) (vcells y1) -> disjoint (vcells x1) (vcells y1) ->
  ext0 A2 = ext1 A2 -> vext x2 = ext1 A2 -> vext y2 = ext0 A2 ->
  mat_holds_on m2 A2 (in_tri t) a2 -> vec_holds m2 x2 f2 -> vwritable y2 -> allocated m2 (vcells y2) ->
  disjoint (mcells_on A2 (in_tri t)) (vcells y2) -> disjoint (vcells x2) (vcells y2) ->
  succeeds (symmetric_matrix_vector_product A1 t x1 y1) m1 (fun _ m1' =>
  succeeds (symmetric_matrix_vector_product A2 t x2 y2) m2 (fun _ m2' =>
    exists r1 r2, vec_holds m1' y1 r1 /\ vec_holds m2' y2 r2 /\
    forall i, i < vext y1 -> i < vext y2 ->
      ext1 A1 = ext1 A2 -> (forall p q, p < ext0 A1 -> q < ext1 A1 -> in_tri t p q -> p = i \/ q = i -> a1 p q = a2 p q) -> (forall k, k < ext1 A1 -> f1 k = f2 k) ->
      r1 i = r2 i)).
Proof.
  intros m1 m2 A1 A2 t x1 x2 y1 y2 a1 a2 f1 f2; intros. eapply wp_conseq; [apply symv_ok; eauto|]. intros [] m1' [K1 _].
  eapply wp_conseq; [apply symv_ok; eauto|]. intros [] m2' [K2 _].
  do 2 eexists; split; [exact K1|split; [exact K2|]]. cbv beta. intros i; intros. ev.
Qed.
Lemma symv_upd_row : forall (m1 m2 : mem O) A1 A2 t x1 x2 y1 y2 z1 z2 a1 a2 f1 f2 g1 g2,
  ext0 A1 = ext1 A1 -> vext x1 = ext1 A1 -> vext y1 = ext0 A1 -> vext z1 = ext0 A1 ->
  mat_holds_on m1 A1 (in_tri t) a1 -> vec_holds m1 x1 f1 -> vec_holds m1 y1 g1 -> vwritable z1 -> allocated m1 (vcells z1) ->
  disjoint (mcells_on A1 (in_tri t)) (vcells z1) -> disjoint (vcells x1) (vcells z1) -> disjoint_or_aligned_v y1 z1 ->
  ext0 A2 = ext1 A2 -> vext x2 = ext1 A2 -> vext y2 = ext0 A2 -> vext z2 = ext0 A2 ->
  mat_holds_on m2 A2 (in_tri t) a2 -> vec_holds m2 x2 f2 -> vec_holds m2 y2 g2 -> vwritable z2 -> allocated m2 (vcells z2) ->
  disjoint (mcells_on A2 (in_tri t)) (vcells z2) -> disjoint (vcells x2) (vcells z2) -> disjoint_or_aligned_v y2 z2 ->
  succeeds (symmetric_matrix_vector_product_upd A1 t x1 y1 z1) m1 (fun _ m1' =>
  succeeds (symmetric_matrix_vector_product_upd A2 t x2 y2 z2) m2 (fun _ m2' =>
    exists r1 r2, vec_holds m1' z1 r1 /\ vec_holds m2' z2 r2 /\
    forall i, i < vext z1 -> i < vext z2 ->
      ext1 A1 = ext1 A2 -> (forall p q, p < ext0 A1 -> q < ext1 A1 -> in_tri t p q -> p = i \/ q = i -> a1 p q = a2 p q) -> (forall k, k < ext1 A1 -> f1 k = f2 k) -> g1 i = g2 i ->
      r1 i = r2 i)).
Proof.
  intros m1 m2 A1 A2 t x1 x2 y1 y2 z1 z2 a1 a2 f1 f2 g1 g2; intros. eapply wp_conseq; [apply symv_upd_ok with (g := g1); eauto|]. intros [] m1' [K1 _].
  eapply wp_conseq; [apply symv_upd_ok with (g := g2); eauto|]. intros [] m2' [K2 _].
  do 2 eexists; split; [exact K1|split; [exact K2|]]. cbv beta. intros i; intros. ev.
Qed.
Lemma hemv_row : forall (m1 m2 : mem O) A1 A2 t x1 x2 y1 y2 a1 a2 f1 f2,
  ext0 A1 = ext1 A1 -> vext x1 = ext1 A1 -> vext y1 = ext0 A1 ->
  mat_holds_on m1 A1 (in_tri t) a1 -> vec_holds m1 x1 f1 -> vwritable y1 -> allocated m1 (vcells y1) ->
  disjoint (mcells_on A1 (in_tri t)) (vcells y1) -> disjoint (vcells x1) (vcells y1) ->
  ext0 A2 = ext1 A2 -> vext x2 = ext1 A2 -> vext y2 = ext0 A2 ->
  mat_holds_on m2 A2 (in_tri t) a2 -> vec_holds m2 x2 f2 -> vwritable y2 -> allocated m2 (vcells y2) ->
  disjoint (mcells_on A2 (in_tri t)) (vcells y2) -> disjoint (vcells x2) (vcells y2) ->
  succeeds (hermitian_matrix_vector_product A1 t x1 y1) m1 (fun _ m1' =>
  succeeds (hermitian_matrix_vector_product A2 t x2 y2) m2 (fun _ m2' =>
    exists r1 r2, vec_holds m1' y1 r1 /\ vec_holds m2' y2 r2 /\
    forall i, i < vext y1 -> i < vext y2 ->
      ext1 A1 = ext1 A2 -> (forall p q, p < ext0 A1 -> q < ext1 A1 -> in_tri t p q -> p = i \/ q = i -> a1 p q = a2 p q) -> (forall k, k < ext1 A1 -> f1 k = f2 k) ->
      r1 i = r2 i)).
Proof.
  intros m1 m2 A1 A2 t x1 x2 y1 y2 a1 a2 f1 f2; intros. eapply wp_conseq; [apply hemv_ok; eauto|]. intros [] m1' [K1 _].
  eapply wp_conseq; [apply hemv_ok; eauto|]. intros [] m2' [K2 _].
  do 2 eexists; split; [exact K1|split; [exact K2|]]. cbv beta. intros i; intros. ev.
Qed.
Lemma hemv_upd_row : forall (m1 m2 : mem O) A1 A2 t x1 x2 y1 y2 z1 z2 a1 a2 f1 f2 g1 g2,
  ext0 A1 = ext1 A1 -> vext x1 = ext1 A1 -> vext y1 = ext0 A1 -> vext z1 = ext0 A1 ->
  mat_holds_on m1 A1 (in_tri t) a1 -> vec_holds m1 x1 f1 -> vec_holds m1 y1 g1 -> vwritable z1 -> allocated m1 (vcells z1) ->
  disjoint (mcells_on A1 (in_tri t)) (vcells z1) -> disjoint (vcells x1) (vcells z1) -> disjoint_or_aligned_v y1 z1 ->
  ext0 A2 = ext1 A2 -> vext x2 = ext1 A2 -> vext y2 = ext0 A2 -> vext z2 = ext0 A2 ->
  mat_holds_on m2 A2 (in_tri t) a2 -> vec_holds m2 x2 f2 -> vec_holds m2 y2 g2 -> vwritable z2 -> allocated m2 (vcells z2) ->
  disjoint (mcells_on A2 (in_tri t)) (vcells z2) -> disjoint (vcells x2) (vcells z2) -> disjoint_or_aligned_v y2 z2 ->
  succeeds (hermitian_matrix_vector_product_upd A1 t x1 y1 z1) m1 (fun _ m1' =>
  succeeds (hermitian_matrix_vector_product_upd A2 t x2 y2 z2) m2 (fun _ m2' =>
    exists r1 r2, vec_holds m1' z1 r1 /\ vec_holds m2' z2 r2 /\
    forall i, i < vext z1 -> i < vext z2 ->
      ext1 A1 = ext1 A2 -> (forall p q, p < ext0 A1 -> q < ext1 A1 -> in_tri t p q -> p = i \/ q = i -> a1 p q = a2 p q) -> (forall k, k < ext1 A1 -> f1 k = f2 k) -> g1 i = g2 i ->
      r1 i = r2 i)).
Proof.
  intros m1 m2 A1 A2 t x1 x2 y1 y2 z1 z2 a1 a2 f1 f2 g1 g2; intros. eapply wp_conseq; [apply hemv_upd_ok with (g := g1); eauto|]. intros [] m1' [K1 _].
  eapply wp_conseq; [apply hemv_upd_ok with (g := g2); eauto|]. intros [] m2' [K2 _].
  do 2 eexists; split; [exact K1|split; [exact K2|]]. cbv beta. intros i; intros. ev.
Qed.
Lemma trmv_row : forall (m1 m2 : mem O) A1 A2 t d x1 x2 y1 y2 a1 a2 f1 f2,
  ext0 A1 = ext1 A1 -> vext x1 = ext1 A1 -> vext y1 = ext0 A1 ->
  mat_holds_on m1 A1 (stored t d) a1 -> vec_holds m1 x1 f1 -> vwritable y1 -> allocated m1 (vcells y1) ->
  disjoint (mcells_on A1 (stored t d)) (vcells y1) -> disjoint (vcells x1) (vcells y1) ->
  ext0 A2 = ext1 A2 -> vext x2 = ext1 A2 -> vext y2 = ext0 A2 ->
  mat_holds_on m2 A2 (stored t d) a2 -> vec_holds m2 x2 f2 -> vwritable y2 -> allocated m2 (vcells y2) ->
  disjoint (mcells_on A2 (stored t d)) (vcells y2) -> disjoint (vcells x2) (vcells y2) ->
  succeeds (triangular_matrix_vector_product A1 t d x1 y1) m1 (fun _ m1' =>
  succeeds (triangular_matrix_vector_product A2 t d x2 y2) m2 (fun _ m2' =>
    exists r1 r2, vec_holds m1' y1 r1 /\ vec_holds m2' y2 r2 /\
    forall i, i < vext y1 -> i < vext y2 ->
      ext1 A1 = ext1 A2 -> (forall k, k < ext1 A1 -> stored t d i k -> a1 i k = a2 i k) -> (forall k, k < ext1 A1 -> in_tri t i k -> f1 k = f2 k) ->
      r1 i = r2 i)).
Proof.
  intros m1 m2 A1 A2 t d x1 x2 y1 y2 a1 a2 f1 f2; intros. eapply wp_conseq; [apply trmv_ok; eauto|]. intros [] m1' [K1 _].
  eapply wp_conseq; [apply trmv_ok; eauto|]. intros [] m2' [K2 _].
  do 2 eexists; split; [exact K1|split; [exact K2|]]. cbv beta. intros i; intros. apply row_eq; try lia; auto; try ev; intros; ev.
Qed.
Lemma trmv_upd_row : forall (m1 m2 : mem O) A1 A2 t d x1 x2 y1 y2 z1 z2 a1 a2 f1 f2 g1 g2,
  ext0 A1 = ext1 A1 -> vext x1 = ext1 A1 -> vext y1 = ext0 A1 -> vext z1 = ext0 A1 ->
  mat_holds_on m1 A1 (stored t d) a1 -> vec_holds m1 x1 f1 -> vec_holds m1 y1 g1 -> vwritable z1 -> allocated m1 (vcells z1) ->
  disjoint (mcells_on A1 (stored t d)) (vcells z1) -> disjoint (vcells x1) (vcells z1) -> disjoint_or_aligned_v y1 z1 ->
  ext0 A2 = ext1 A2 -> vext x2 = ext1 A2 -> vext y2 = ext0 A2 -> vext z2 = ext0 A2 ->
  mat_holds_on m2 A2 (stored t d) a2 -> vec_holds m2 x2 f2 -> vec_holds m2 y2 g2 -> vwritable z2 -> allocated m2 (vcells z2) ->
  disjoint (mcells_on A2 (stored t d)) (vcells z2) -> disjoint (vcells x2) (vcells z2) -> disjoint_or_aligned_v y2 z2 ->
  succeeds (triangular_matrix_vector_product_upd A1 t d x1 y1 z1) m1 (fun _ m1' =>
  succeeds (triangular_matrix_vector_product_upd A2 t d x2 y2 z2) m2 (fun _ m2' =>
    exists r1 r2, vec_holds m1' z1 r1 /\ vec_holds m2' z2 r2 /\
    forall i, i < vext z1 -> i < vext z2 ->
      ext1 A1 = ext1 A2 -> (forall k, k < ext1 A1 -> stored t d i k -> a1 i k = a2 i k) -> (forall k, k < ext1 A1 -> in_tri t i k -> f1 k = f2 k) -> g1 i = g2 i ->
      r1 i = r2 i)).
Proof.
  intros m1 m2 A1 A2 t d x1 x2 y1 y2 z1 z2 a1 a2 f1 f2 g1 g2; intros. eapply wp_conseq; [apply trmv_upd_ok with (g := g1); eauto|]. intros [] m1' [K1 _].
  eapply wp_conseq; [apply trmv_upd_ok with (g := g2); eauto|]. intros [] m2' [K2 _].
  do 2 eexists; split; [exact K1|split; [exact K2|]]. cbv beta. intros i; intros. apply row_eq; try lia; auto; try ev; intros; ev.
Qed.
Lemma trmv_inplace_row : forall (m1 m2 : mem O) A1 A2 t d y1 y2 a1 a2 f1 f2,
  ext0 A1 = ext1 A1 -> vext y1 = ext0 A1 ->
  mat_holds_on m1 A1 (stored t d) a1 -> vec_holds m1 y1 f1 -> vwritable y1 ->
  disjoint (mcells_on A1 (stored t d)) (vcells y1) ->
  ext0 A2 = ext1 A2 -> vext y2 = ext0 A2 ->
  mat_holds_on m2 A2 (stored t d) a2 -> vec_holds m2 y2 f2 -> vwritable y2 ->
  disjoint (mcells_on A2 (stored t d)) (vcells y2) ->
  succeeds (triangular_matrix_vector_product_inplace A1 t d y1) m1 (fun _ m1' =>
  succeeds (triangular_matrix_vector_product_inplace A2 t d y2) m2 (fun _ m2' =>
    exists r1 r2, vec_holds m1' y1 r1 /\ vec_holds m2' y2 r2 /\
    forall i, i < vext y1 -> i < vext y2 ->
      ext1 A1 = ext1 A2 -> (forall k, k < ext1 A1 -> stored t d i k -> a1 i k = a2 i k) -> (forall k, k < ext1 A1 -> in_tri t i k -> f1 k = f2 k) ->
      r1 i = r2 i)).
Proof.
  intros m1 m2 A1 A2 t d y1 y2 a1 a2 f1 f2; intros. eapply wp_conseq; [apply trmv_inplace_exact; eauto|]. intros [] m1' [K1 _].
  eapply wp_conseq; [apply trmv_inplace_exact; eauto|]. intros [] m2' [K2 _].
  do 2 eexists; split; [exact K1|split; [exact K2|]]. cbv beta. intros i; intros. assert (in_tri t i i) by (destruct t; simpl; lia). apply (added_gr eq_graded); [congruence| |].
  - apply (@diag_gr O eq); [intros ->|intros; ev]. assert (stored t Explicit i i) by (split; [destruct t; simpl; lia|discriminate]). ev.
  - intros k Hk. apply row_order_in in Hk; [|lia]. destruct Hk as (Q1 & Q2 & Q3). assert (stored t d i k) by (split; auto). ev.
Qed.
Lemma ger_row : forall (m1 m2 : mem O) x1 x2 y1 y2 A1 A2 a1 a2 f1 f2 g1 g2,
  vext x1 = ext0 A1 -> vext y1 = ext1 A1 ->
  mat_holds m1 A1 a1 -> vec_holds m1 x1 f1 -> vec_holds m1 y1 g1 -> mwritable A1 ->
  disjoint (vcells x1) (mcells A1) -> disjoint (vcells y1) (mcells A1) ->
  vext x2 = ext0 A2 -> vext y2 = ext1 A2 ->
  mat_holds m2 A2 a2 -> vec_holds m2 x2 f2 -> vec_holds m2 y2 g2 -> mwritable A2 ->
  disjoint (vcells x2) (mcells A2) -> disjoint (vcells y2) (mcells A2) ->
  succeeds (matrix_rank_1_update x1 y1 A1) m1 (fun _ m1' =>
  succeeds (matrix_rank_1_update x2 y2 A2) m2 (fun _ m2' =>
    exists r1 r2, mat_holds m1' A1 r1 /\ mat_holds m2' A2 r2 /\
    forall i1 i2 j1 j2, i1 < ext0 A1 -> j1 < ext1 A1 -> i2 < ext0 A2 -> j2 < ext1 A2 ->
      a1 i1 j1 = a2 i2 j2 -> f1 i1 = f2 i2 -> g1 j1 = g2 j2 ->
      r1 i1 j1 = r2 i2 j2)).
Proof.
  intros m1 m2 x1 x2 y1 y2 A1 A2 a1 a2 f1 f2 g1 g2; intros. eapply wp_conseq; [apply ger_ok; eauto|]. intros [] m1' [K1 _].
  eapply wp_conseq; [apply ger_ok; eauto|]. intros [] m2' [K2 _].
  do 2 eexists; split; [exact K1|split; [exact K2|]]. cbv beta. intros i1 i2 j1 j2; intros. ev.
Qed.
Lemma gerc_row : forall (m1 m2 : mem O) fix_nc nc x1 x2 y1 y2 A1 A2 a1 a2 f1 f2 g1 g2,
  (forall v : O, conj (conj v) = v) -> (nc = true -> forall v : O, conj v = v) ->
  vext x1 = ext0 A1 -> vext y1 = ext1 A1 ->
  mat_holds m1 A1 a1 -> vec_holds m1 x1 f1 -> vec_holds m1 y1 g1 -> mwritable A1 ->
  disjoint (vcells x1) (mcells A1) -> disjoint (vcells y1) (mcells A1) ->
  vext x2 = ext0 A2 -> vext y2 = ext1 A2 ->
  mat_holds m2 A2 a2 -> vec_holds m2 x2 f2 -> vec_holds m2 y2 g2 -> mwritable A2 ->
  disjoint (vcells x2) (mcells A2) -> disjoint (vcells y2) (mcells A2) ->
  succeeds (matrix_rank_1_update_c fix_nc nc x1 y1 A1) m1 (fun _ m1' =>
  succeeds (matrix_rank_1_update_c fix_nc nc x2 y2 A2) m2 (fun _ m2' =>
    exists r1 r2, mat_holds m1' A1 r1 /\ mat_holds m2' A2 r2 /\
    forall i1 i2 j1 j2, i1 < ext0 A1 -> j1 < ext1 A1 -> i2 < ext0 A2 -> j2 < ext1 A2 ->
      a1 i1 j1 = a2 i2 j2 -> f1 i1 = f2 i2 -> g1 j1 = g2 j2 ->
      r1 i1 j1 = r2 i2 j2)).
Proof.
  intros m1 m2 fix_nc nc x1 x2 y1 y2 A1 A2 a1 a2 f1 f2 g1 g2; intros. eapply wp_conseq; [apply gerc_ok; eauto|]. intros [] m1' [K1 _].
  eapply wp_conseq; [apply gerc_ok; eauto|]. intros [] m2' [K2 _].
  do 2 eexists; split; [exact K1|split; [exact K2|]]. cbv beta. intros i1 i2 j1 j2; intros. ev.
Qed.
Lemma syr_row : forall (m1 m2 : mem O) x1 x2 A1 A2 t a1 a2 f1 f2,
  ext0 A1 = ext1 A1 -> vext x1 = ext0 A1 ->
  mat_holds_on m1 A1 (in_tri t) a1 -> vec_holds m1 x1 f1 -> mwritable_on A1 (in_tri t) ->
  disjoint (vcells x1) (mcells_on A1 (in_tri t)) ->
  ext0 A2 = ext1 A2 -> vext x2 = ext0 A2 ->
  mat_holds_on m2 A2 (in_tri t) a2 -> vec_holds m2 x2 f2 -> mwritable_on A2 (in_tri t) ->
  disjoint (vcells x2) (mcells_on A2 (in_tri t)) ->
  succeeds (symmetric_matrix_rank_1_update x1 A1 t) m1 (fun _ m1' =>
  succeeds (symmetric_matrix_rank_1_update x2 A2 t) m2 (fun _ m2' =>
    exists r1 r2, mat_holds_on m1' A1 (in_tri t) r1 /\ mat_holds_on m2' A2 (in_tri t) r2 /\
    forall i1 i2 j1 j2, i1 < ext0 A1 -> j1 < ext1 A1 -> i2 < ext0 A2 -> j2 < ext1 A2 -> in_tri t i1 j1 -> in_tri t i2 j2 ->
      a1 i1 j1 = a2 i2 j2 -> f1 i1 = f2 i2 -> f1 j1 = f2 j2 ->
      r1 i1 j1 = r2 i2 j2)).
Proof.
  intros m1 m2 x1 x2 A1 A2 t a1 a2 f1 f2; intros. eapply wp_conseq; [apply syr_ok; eauto|]. intros [] m1' [K1 _].
  eapply wp_conseq; [apply syr_ok; eauto|]. intros [] m2' [K2 _].
  do 2 eexists; split; [exact K1|split; [exact K2|]]. cbv beta. intros i1 i2 j1 j2; intros. ev.
Qed.
Lemma syr2_row : forall (m1 m2 : mem O) x1 x2 y1 y2 A1 A2 t a1 a2 f1 f2 g1 g2,
  ext0 A1 = ext1 A1 -> vext x1 = ext0 A1 -> vext y1 = ext0 A1 ->
  mat_holds_on m1 A1 (in_tri t) a1 -> vec_holds m1 x1 f1 -> vec_holds m1 y1 g1 -> mwritable_on A1 (in_tri t) ->
  disjoint (vcells x1) (mcells_on A1 (in_tri t)) -> disjoint (vcells y1) (mcells_on A1 (in_tri t)) ->
  ext0 A2 = ext1 A2 -> vext x2 = ext0 A2 -> vext y2 = ext0 A2 ->
  mat_holds_on m2 A2 (in_tri t) a2 -> vec_holds m2 x2 f2 -> vec_holds m2 y2 g2 -> mwritable_on A2 (in_tri t) ->
  disjoint (vcells x2) (mcells_on A2 (in_tri t)) -> disjoint (vcells y2) (mcells_on A2 (in_tri t)) ->
  succeeds (symmetric_matrix_rank_2_update x1 y1 A1 t) m1 (fun _ m1' =>
  succeeds (symmetric_matrix_rank_2_update x2 y2 A2 t) m2 (fun _ m2' =>
    exists r1 r2, mat_holds_on m1' A1 (in_tri t) r1 /\ mat_holds_on m2' A2 (in_tri t) r2 /\
    forall i1 i2 j1 j2, i1 < ext0 A1 -> j1 < ext1 A1 -> i2 < ext0 A2 -> j2 < ext1 A2 -> in_tri t i1 j1 -> in_tri t i2 j2 ->
      a1 i1 j1 = a2 i2 j2 -> f1 i1 = f2 i2 -> f1 j1 = f2 j2 -> g1 i1 = g2 i2 -> g1 j1 = g2 j2 ->
      r1 i1 j1 = r2 i2 j2)).
Proof.
  intros m1 m2 x1 x2 y1 y2 A1 A2 t a1 a2 f1 f2 g1 g2; intros. eapply wp_conseq; [apply syr2_ok; eauto|]. intros [] m1' [K1 _].
  eapply wp_conseq; [apply syr2_ok; eauto|]. intros [] m2' [K2 _].
  do 2 eexists; split; [exact K1|split; [exact K2|]]. cbv beta. intros i1 i2 j1 j2; intros. ev.
Qed.
Lemma her_row : forall (m1 m2 : mem O) x1 x2 A1 A2 t a1 a2 f1 f2,
  ext0 A1 = ext1 A1 -> vext x1 = ext0 A1 ->
  mat_holds_on m1 A1 (in_tri t) a1 -> vec_holds m1 x1 f1 -> mwritable_on A1 (in_tri t) ->
  disjoint (vcells x1) (mcells_on A1 (in_tri t)) ->
  ext0 A2 = ext1 A2 -> vext x2 = ext0 A2 ->
  mat_holds_on m2 A2 (in_tri t) a2 -> vec_holds m2 x2 f2 -> mwritable_on A2 (in_tri t) ->
  disjoint (vcells x2) (mcells_on A2 (in_tri t)) ->
  succeeds (hermitian_matrix_rank_1_update x1 A1 t) m1 (fun _ m1' =>
  succeeds (hermitian_matrix_rank_1_update x2 A2 t) m2 (fun _ m2' =>
    exists r1 r2, mat_holds_on m1' A1 (in_tri t) r1 /\ mat_holds_on m2' A2 (in_tri t) r2 /\
    forall i1 i2 j1 j2, i1 < ext0 A1 -> j1 < ext1 A1 -> i2 < ext0 A2 -> j2 < ext1 A2 -> in_tri t i1 j1 -> in_tri t i2 j2 ->
      (i1 = j1 <-> i2 = j2) -> a1 i1 j1 = a2 i2 j2 -> f1 i1 = f2 i2 -> f1 j1 = f2 j2 ->
      r1 i1 j1 = r2 i2 j2)).
Proof.
  intros m1 m2 x1 x2 A1 A2 t a1 a2 f1 f2; intros. eapply wp_conseq; [apply her_ok; eauto|]. intros [] m1' [K1 _].
  eapply wp_conseq; [apply her_ok; eauto|]. intros [] m2' [K2 _].
  do 2 eexists; split; [exact K1|split; [exact K2|]]. cbv beta. intros i1 i2 j1 j2; intros. ev.
Qed.
Lemma her2_row : forall (m1 m2 : mem O) x1 x2 y1 y2 A1 A2 t a1 a2 f1 f2 g1 g2,
  ext0 A1 = ext1 A1 -> vext x1 = ext0 A1 -> vext y1 = ext0 A1 ->
  mat_holds_on m1 A1 (in_tri t) a1 -> vec_holds m1 x1 f1 -> vec_holds m1 y1 g1 -> mwritable_on A1 (in_tri t) ->
  disjoint (vcells x1) (mcells_on A1 (in_tri t)) -> disjoint (vcells y1) (mcells_on A1 (in_tri t)) ->
  ext0 A2 = ext1 A2 -> vext x2 = ext0 A2 -> vext y2 = ext0 A2 ->
  mat_holds_on m2 A2 (in_tri t) a2 -> vec_holds m2 x2 f2 -> vec_holds m2 y2 g2 -> mwritable_on A2 (in_tri t) ->
  disjoint (vcells x2) (mcells_on A2 (in_tri t)) -> disjoint (vcells y2) (mcells_on A2 (in_tri t)) ->
  succeeds (hermitian_matrix_rank_2_update x1 y1 A1 t) m1 (fun _ m1' =>
  succeeds (hermitian_matrix_rank_2_update x2 y2 A2 t) m2 (fun _ m2' =>
    exists r1 r2, mat_holds_on m1' A1 (in_tri t) r1 /\ mat_holds_on m2' A2 (in_tri t) r2 /\
    forall i1 i2 j1 j2, i1 < ext0 A1 -> j1 < ext1 A1 -> i2 < ext0 A2 -> j2 < ext1 A2 -> in_tri t i1 j1 -> in_tri t i2 j2 ->
      (i1 = j1 <-> i2 = j2) -> a1 i1 j1 = a2 i2 j2 -> f1 i1 = f2 i2 -> f1 j1 = f2 j2 -> g1 i1 = g2 i2 -> g1 j1 = g2 j2 ->
      r1 i1 j1 = r2 i2 j2)).
Proof.
  intros m1 m2 x1 x2 y1 y2 A1 A2 t a1 a2 f1 f2 g1 g2; intros. eapply wp_conseq; [apply her2_ok; eauto|]. intros [] m1' [K1 _].
  eapply wp_conseq; [apply her2_ok; eauto|]. intros [] m2' [K2 _].
  do 2 eexists; split; [exact K1|split; [exact K2|]]. cbv beta. intros i1 i2 j1 j2; intros. ev.
Qed.
Lemma gemm_row : forall (m1 m2 : mem O) A1 A2 B1 B2 C1 C2 a1 a2 b1 b2,
  ext0 C1 = ext0 A1 -> ext1 A1 = ext0 B1 -> ext1 C1 = ext1 B1 ->
  mat_holds m1 A1 a1 -> mat_holds m1 B1 b1 -> mwritable C1 -> allocated m1 (mcells C1) ->
  disjoint (mcells A1) (mcells C1) -> disjoint (mcells B1) (mcells C1) ->
  ext0 C2 = ext0 A2 -> ext1 A2 = ext0 B2 -> ext1 C2 = ext1 B2 ->
  mat_holds m2 A2 a2 -> mat_holds m2 B2 b2 -> mwritable C2 -> allocated m2 (mcells C2) ->
  disjoint (mcells A2) (mcells C2) -> disjoint (mcells B2) (mcells C2) ->
  succeeds (matrix_product A1 B1 C1) m1 (fun _ m1' =>
  succeeds (matrix_product A2 B2 C2) m2 (fun _ m2' =>
    exists r1 r2, mat_holds m1' C1 r1 /\ mat_holds m2' C2 r2 /\
    forall i1 i2 j1 j2, i1 < ext0 C1 -> j1 < ext1 C1 -> i2 < ext0 C2 -> j2 < ext1 C2 ->
      ext1 A1 = ext1 A2 -> (forall k, k < ext1 A1 -> a1 i1 k = a2 i2 k) -> (forall k, k < ext1 A1 -> b1 k j1 = b2 k j2) ->
      r1 i1 j1 = r2 i2 j2)).
Proof.
  intros m1 m2 A1 A2 B1 B2 C1 C2 a1 a2 b1 b2; intros. eapply wp_conseq; [apply gemm_ok; eauto|]. intros [] m1' [K1 _].
  eapply wp_conseq; [apply gemm_ok; eauto|]. intros [] m2' [K2 _].
  do 2 eexists; split; [exact K1|split; [exact K2|]]. cbv beta. intros i1 i2 j1 j2; intros. ev.
Qed.
Lemma gemm_upd_row : forall (m1 m2 : mem O) A1 A2 B1 B2 E1 E2 C1 C2 a1 a2 b1 b2 e1 e2,
  ext0 C1 = ext0 A1 -> ext1 A1 = ext0 B1 -> ext1 C1 = ext1 B1 -> ext0 E1 = ext0 C1 -> ext1 E1 = ext1 C1 ->
  mat_holds m1 A1 a1 -> mat_holds m1 B1 b1 -> mat_holds m1 E1 e1 -> mwritable C1 -> allocated m1 (mcells C1) ->
  disjoint (mcells A1) (mcells C1) -> disjoint (mcells B1) (mcells C1) -> disjoint_or_aligned_m E1 C1 ->
  ext0 C2 = ext0 A2 -> ext1 A2 = ext0 B2 -> ext1 C2 = ext1 B2 -> ext0 E2 = ext0 C2 -> ext1 E2 = ext1 C2 ->
  mat_holds m2 A2 a2 -> mat_holds m2 B2 b2 -> mat_holds m2 E2 e2 -> mwritable C2 -> allocated m2 (mcells C2) ->
  disjoint (mcells A2) (mcells C2) -> disjoint (mcells B2) (mcells C2) -> disjoint_or_aligned_m E2 C2 ->
  succeeds (matrix_product_upd A1 B1 E1 C1) m1 (fun _ m1' =>
  succeeds (matrix_product_upd A2 B2 E2 C2) m2 (fun _ m2' =>
    exists r1 r2, mat_holds m1' C1 r1 /\ mat_holds m2' C2 r2 /\
    forall i1 i2 j1 j2, i1 < ext0 C1 -> j1 < ext1 C1 -> i2 < ext0 C2 -> j2 < ext1 C2 ->
      ext1 A1 = ext1 A2 -> (forall k, k < ext1 A1 -> a1 i1 k = a2 i2 k) -> (forall k, k < ext1 A1 -> b1 k j1 = b2 k j2) -> e1 i1 j1 = e2 i2 j2 ->
      r1 i1 j1 = r2 i2 j2)).
Proof.
  intros m1 m2 A1 A2 B1 B2 E1 E2 C1 C2 a1 a2 b1 b2 e1 e2; intros. eapply wp_conseq; [apply gemm_upd_ok with (e := e1); eauto|]. intros [] m1' [K1 _].
  eapply wp_conseq; [apply gemm_upd_ok with (e := e2); eauto|]. intros [] m2' [K2 _].
  do 2 eexists; split; [exact K1|split; [exact K2|]]. cbv beta. intros i1 i2 j1 j2; intros. ev.
Qed.
Lemma symm_left_row : forall (m1 m2 : mem O) A1 A2 t B1 B2 C1 C2 a1 a2 b1 b2,
  ext0 A1 = ext1 A1 -> ext0 C1 = ext0 A1 -> ext1 A1 = ext0 B1 -> ext1 C1 = ext1 B1 ->
  mat_holds_on m1 A1 (in_tri t) a1 -> mat_holds m1 B1 b1 -> mwritable C1 -> allocated m1 (mcells C1) ->
  disjoint (mcells_on A1 (in_tri t)) (mcells C1) -> disjoint (mcells B1) (mcells C1) ->
  ext0 A2 = ext1 A2 -> ext0 C2 = ext0 A2 -> ext1 A2 = ext0 B2 -> ext1 C2 = ext1 B2 ->
  mat_holds_on m2 A2 (in_tri t) a2 -> mat_holds m2 B2 b2 -> mwritable C2 -> allocated m2 (mcells C2) ->
  disjoint (mcells_on A2 (in_tri t)) (mcells C2) -> disjoint (mcells B2) (mcells C2) ->
  succeeds (symmetric_matrix_product_left A1 t B1 C1) m1 (fun _ m1' =>
  succeeds (symmetric_matrix_product_left A2 t B2 C2) m2 (fun _ m2' =>
    exists r1 r2, mat_holds m1' C1 r1 /\ mat_holds m2' C2 r2 /\
    forall i j1 j2, i < ext0 C1 -> j1 < ext1 C1 -> i < ext0 C2 -> j2 < ext1 C2 ->
      ext1 A1 = ext1 A2 -> (forall p q, p < ext0 A1 -> q < ext1 A1 -> in_tri t p q -> p = i \/ q = i -> a1 p q = a2 p q) -> (forall k, k < ext1 A1 -> b1 k j1 = b2 k j2) ->
      r1 i j1 = r2 i j2)).
Proof.
  intros m1 m2 A1 A2 t B1 B2 C1 C2 a1 a2 b1 b2; intros. eapply wp_conseq; [apply symm_left_ok; eauto|]. intros [] m1' [K1 _].
  eapply wp_conseq; [apply symm_left_ok; eauto|]. intros [] m2' [K2 _].
  do 2 eexists; split; [exact K1|split; [exact K2|]]. cbv beta. intros i j1 j2; intros. ev.
Qed.
Lemma symm_right_row : forall (m1 m2 : mem O) B1 B2 A1 A2 t C1 C2 a1 a2 b1 b2,
  ext0 A1 = ext1 A1 -> ext0 C1 = ext0 B1 -> ext1 B1 = ext0 A1 -> ext1 C1 = ext1 A1 ->
  mat_holds_on m1 A1 (in_tri t) a1 -> mat_holds m1 B1 b1 -> mwritable C1 -> allocated m1 (mcells C1) ->
  disjoint (mcells_on A1 (in_tri t)) (mcells C1) -> disjoint (mcells B1) (mcells C1) ->
  ext0 A2 = ext1 A2 -> ext0 C2 = ext0 B2 -> ext1 B2 = ext0 A2 -> ext1 C2 = ext1 A2 ->
  mat_holds_on m2 A2 (in_tri t) a2 -> mat_holds m2 B2 b2 -> mwritable C2 -> allocated m2 (mcells C2) ->
  disjoint (mcells_on A2 (in_tri t)) (mcells C2) -> disjoint (mcells B2) (mcells C2) ->
  succeeds (symmetric_matrix_product_right B1 A1 t C1) m1 (fun _ m1' =>
  succeeds (symmetric_matrix_product_right B2 A2 t C2) m2 (fun _ m2' =>
    exists r1 r2, mat_holds m1' C1 r1 /\ mat_holds m2' C2 r2 /\
    forall i1 i2 j, i1 < ext0 C1 -> j < ext1 C1 -> i2 < ext0 C2 -> j < ext1 C2 ->
      ext1 A1 = ext1 A2 -> (forall p q, p < ext0 A1 -> q < ext1 A1 -> in_tri t p q -> p = j \/ q = j -> a1 p q = a2 p q) -> (forall k, k < ext1 A1 -> b1 i1 k = b2 i2 k) ->
      r1 i1 j = r2 i2 j)).
Proof.
  intros m1 m2 B1 B2 A1 A2 t C1 C2 a1 a2 b1 b2; intros. eapply wp_conseq; [apply symm_right_ok; eauto|]. intros [] m1' [K1 _].
  eapply wp_conseq; [apply symm_right_ok; eauto|]. intros [] m2' [K2 _].
  do 2 eexists; split; [exact K1|split; [exact K2|]]. cbv beta. intros i1 i2 j; intros. ev.
Qed.
Lemma hemm_left_row : forall (m1 m2 : mem O) A1 A2 t B1 B2 C1 C2 a1 a2 b1 b2,
  ext0 A1 = ext1 A1 -> ext0 C1 = ext0 A1 -> ext1 A1 = ext0 B1 -> ext1 C1 = ext1 B1 ->
  mat_holds_on m1 A1 (in_tri t) a1 -> mat_holds m1 B1 b1 -> mwritable C1 -> allocated m1 (mcells C1) ->
  disjoint (mcells_on A1 (in_tri t)) (mcells C1) -> disjoint (mcells B1) (mcells C1) ->
  ext0 A2 = ext1 A2 -> ext0 C2 = ext0 A2 -> ext1 A2 = ext0 B2 -> ext1 C2 = ext1 B2 ->
  mat_holds_on m2 A2 (in_tri t) a2 -> mat_holds m2 B2 b2 -> mwritable C2 -> allocated m2 (mcells C2) ->
  disjoint (mcells_on A2 (in_tri t)) (mcells C2) -> disjoint (mcells B2) (mcells C2) ->
  succeeds (hermitian_matrix_product_left A1 t B1 C1) m1 (fun _ m1' =>
  succeeds (hermitian_matrix_product_left A2 t B2 C2) m2 (fun _ m2' =>
    exists r1 r2, mat_holds m1' C1 r1 /\ mat_holds m2' C2 r2 /\
    forall i j1 j2, i < ext0 C1 -> j1 < ext1 C1 -> i < ext0 C2 -> j2 < ext1 C2 ->
      ext1 A1 = ext1 A2 -> (forall p q, p < ext0 A1 -> q < ext1 A1 -> in_tri t p q -> p = i \/ q = i -> a1 p q = a2 p q) -> (forall k, k < ext1 A1 -> b1 k j1 = b2 k j2) ->
      r1 i j1 = r2 i j2)).
Proof.
  intros m1 m2 A1 A2 t B1 B2 C1 C2 a1 a2 b1 b2; intros. eapply wp_conseq; [apply hemm_left_ok; eauto|]. intros [] m1' [K1 _].
  eapply wp_conseq; [apply hemm_left_ok; eauto|]. intros [] m2' [K2 _].
  do 2 eexists; split; [exact K1|split; [exact K2|]]. cbv beta. intros i j1 j2; intros. ev.
Qed.
Lemma hemm_right_row : forall (m1 m2 : mem O) B1 B2 A1 A2 t C1 C2 a1 a2 b1 b2,
  ext0 A1 = ext1 A1 -> ext0 C1 = ext0 B1 -> ext1 B1 = ext0 A1 -> ext1 C1 = ext1 A1 ->
  mat_holds_on m1 A1 (in_tri t) a1 -> mat_holds m1 B1 b1 -> mwritable C1 -> allocated m1 (mcells C1) ->
  disjoint (mcells_on A1 (in_tri t)) (mcells C1) -> disjoint (mcells B1) (mcells C1) ->
  ext0 A2 = ext1 A2 -> ext0 C2 = ext0 B2 -> ext1 B2 = ext0 A2 -> ext1 C2 = ext1 A2 ->
  mat_holds_on m2 A2 (in_tri t) a2 -> mat_holds m2 B2 b2 -> mwritable C2 -> allocated m2 (mcells C2) ->
  disjoint (mcells_on A2 (in_tri t)) (mcells C2) -> disjoint (mcells B2) (mcells C2) ->
  succeeds (hermitian_matrix_product_right B1 A1 t C1) m1 (fun _ m1' =>
  succeeds (hermitian_matrix_product_right B2 A2 t C2) m2 (fun _ m2' =>
    exists r1 r2, mat_holds m1' C1 r1 /\ mat_holds m2' C2 r2 /\
    forall i1 i2 j, i1 < ext0 C1 -> j < ext1 C1 -> i2 < ext0 C2 -> j < ext1 C2 ->
      ext1 A1 = ext1 A2 -> (forall p q, p < ext0 A1 -> q < ext1 A1 -> in_tri t p q -> p = j \/ q = j -> a1 p q = a2 p q) -> (forall k, k < ext1 A1 -> b1 i1 k = b2 i2 k) ->
      r1 i1 j = r2 i2 j)).
Proof.
  intros m1 m2 B1 B2 A1 A2 t C1 C2 a1 a2 b1 b2; intros. eapply wp_conseq; [apply hemm_right_ok; eauto|]. intros [] m1' [K1 _].
  eapply wp_conseq; [apply hemm_right_ok; eauto|]. intros [] m2' [K2 _].
  do 2 eexists; split; [exact K1|split; [exact K2|]]. cbv beta. intros i1 i2 j; intros. ev.
Qed.
Lemma trmm_left_row : forall ty (m1 m2 : mem O) A1 A2 t d B1 B2 C1 C2 a1 a2 b1 b2,
  fits ty (ext0 C1) ->
  ext0 A1 = ext1 A1 -> ext0 C1 = ext0 A1 -> ext1 A1 = ext0 B1 -> ext1 C1 = ext1 B1 ->
  mat_holds_on m1 A1 (stored t d) a1 -> mat_holds m1 B1 b1 -> mwritable C1 -> allocated m1 (mcells C1) ->
  disjoint (mcells_on A1 (stored t d)) (mcells C1) -> disjoint (mcells B1) (mcells C1) ->
  fits ty (ext0 C2) ->
  ext0 A2 = ext1 A2 -> ext0 C2 = ext0 A2 -> ext1 A2 = ext0 B2 -> ext1 C2 = ext1 B2 ->
  mat_holds_on m2 A2 (stored t d) a2 -> mat_holds m2 B2 b2 -> mwritable C2 -> allocated m2 (mcells C2) ->
  disjoint (mcells_on A2 (stored t d)) (mcells C2) -> disjoint (mcells B2) (mcells C2) ->
  succeeds (triangular_matrix_product_left ty A1 t d B1 C1) m1 (fun _ m1' =>
  succeeds (triangular_matrix_product_left ty A2 t d B2 C2) m2 (fun _ m2' =>
    exists r1 r2, mat_holds m1' C1 r1 /\ mat_holds m2' C2 r2 /\
    forall i j1 j2, i < ext0 C1 -> j1 < ext1 C1 -> i < ext0 C2 -> j2 < ext1 C2 ->
      ext1 A1 = ext1 A2 -> (forall k, k < ext1 A1 -> stored t d i k -> a1 i k = a2 i k) -> (forall k, k < ext1 A1 -> in_tri t i k -> b1 k j1 = b2 k j2) ->
      r1 i j1 = r2 i j2)).
Proof.
  intros ty m1 m2 A1 A2 t d B1 B2 C1 C2 a1 a2 b1 b2; intros. eapply wp_conseq; [apply trmm_left_raw; eauto|]. intros [] m1' [K1 _].
  eapply wp_conseq; [apply trmm_left_raw; eauto|]. intros [] m2' [K2 _].
  do 2 eexists; split; [exact K1|split; [exact K2|]]. cbv beta. intros i j1 j2; intros. apply (@tri_elem_gr O eq eq eq eq_graded); try lia; intros.
  - match goal with K : stored _ _ _ _ |- _ => pose proof (proj1 K) end. ev.
  - assert (in_tri t i i) by (destruct t; simpl; lia). ev.
Qed.
Lemma trmm_right_row : forall ty (m1 m2 : mem O) B1 B2 A1 A2 t d C1 C2 a1 a2 b1 b2,
  fits ty (ext1 C1) ->
  ext0 A1 = ext1 A1 -> ext0 C1 = ext0 B1 -> ext1 B1 = ext0 A1 -> ext1 C1 = ext1 A1 ->
  mat_holds_on m1 A1 (stored t d) a1 -> mat_holds m1 B1 b1 -> mwritable C1 -> allocated m1 (mcells C1) ->
  disjoint (mcells_on A1 (stored t d)) (mcells C1) -> disjoint (mcells B1) (mcells C1) ->
  fits ty (ext1 C2) ->
  ext0 A2 = ext1 A2 -> ext0 C2 = ext0 B2 -> ext1 B2 = ext0 A2 -> ext1 C2 = ext1 A2 ->
  mat_holds_on m2 A2 (stored t d) a2 -> mat_holds m2 B2 b2 -> mwritable C2 -> allocated m2 (mcells C2) ->
  disjoint (mcells_on A2 (stored t d)) (mcells C2) -> disjoint (mcells B2) (mcells C2) ->
  succeeds (triangular_matrix_product_right ty B1 A1 t d C1) m1 (fun _ m1' =>
  succeeds (triangular_matrix_product_right ty B2 A2 t d C2) m2 (fun _ m2' =>
    exists r1 r2, mat_holds m1' C1 r1 /\ mat_holds m2' C2 r2 /\
    forall i1 i2 j, i1 < ext0 C1 -> j < ext1 C1 -> i2 < ext0 C2 -> j < ext1 C2 ->
      ext1 A1 = ext1 A2 -> (forall k, k < ext1 A1 -> stored t d k j -> a1 k j = a2 k j) -> (forall k, k < ext1 A1 -> in_tri t k j -> b1 i1 k = b2 i2 k) ->
      r1 i1 j = r2 i2 j)).
Proof.
  intros ty m1 m2 B1 B2 A1 A2 t d C1 C2 a1 a2 b1 b2; intros. eapply wp_conseq; [apply trmm_right_raw; eauto|]. intros [] m1' [K1 _].
  eapply wp_conseq; [apply trmm_right_raw; eauto|]. intros [] m2' [K2 _].
  do 2 eexists; split; [exact K1|split; [exact K2|]]. cbv beta. intros i1 i2 j; intros. assert (FL : negb (is_lower t) = is_lower (flip t)) by (destruct t; auto). rewrite FL.
  apply (@tri_elem_gr O eq eq eq eq_graded); try lia; [|intros; assert (in_tri t j j) by (destruct t; simpl; lia); ev]. intros k Hk [S1 S2].
  assert (in_tri t k j) by (destruct t; simpl in *; lia). assert (stored t d k j) by (split; [auto|intros E F; apply (S2 E); auto]). ev.
Qed.
Lemma trmm_left_inplace_row : forall (m1 m2 : mem O) A1 A2 t d C1 C2 a1 a2 c1 c2,
  ext0 A1 = ext1 A1 -> ext0 C1 = ext0 A1 ->
  mat_holds_on m1 A1 (stored t d) a1 -> mat_holds m1 C1 c1 -> mwritable C1 ->
  disjoint (mcells_on A1 (stored t d)) (mcells C1) ->
  ext0 A2 = ext1 A2 -> ext0 C2 = ext0 A2 ->
  mat_holds_on m2 A2 (stored t d) a2 -> mat_holds m2 C2 c2 -> mwritable C2 ->
  disjoint (mcells_on A2 (stored t d)) (mcells C2) ->
  succeeds (triangular_matrix_left_product A1 t d C1) m1 (fun _ m1' =>
  succeeds (triangular_matrix_left_product A2 t d C2) m2 (fun _ m2' =>
    exists r1 r2, mat_holds m1' C1 r1 /\ mat_holds m2' C2 r2 /\
    forall i j1 j2, i < ext0 C1 -> j1 < ext1 C1 -> i < ext0 C2 -> j2 < ext1 C2 ->
      ext1 A1 = ext1 A2 -> (forall k, k < ext1 A1 -> stored t d i k -> a1 i k = a2 i k) -> (forall k, k < ext1 A1 -> in_tri t i k -> c1 k j1 = c2 k j2) ->
      r1 i j1 = r2 i j2)).
Proof.
  intros m1 m2 A1 A2 t d C1 C2 a1 a2 c1 c2; intros. eapply wp_conseq; [apply trmm_left_inplace_exact; eauto|]. intros [] m1' [K1 _].
  eapply wp_conseq; [apply trmm_left_inplace_exact; eauto|]. intros [] m2' [K2 _].
  do 2 eexists; split; [exact K1|split; [exact K2|]]. cbv beta. intros i j1 j2; intros. assert (in_tri t i i) by (destruct t; simpl; lia). apply (added_gr eq_graded); [congruence| |].
  - apply (@diag_gr O eq); [intros ->|intros; ev]. assert (stored t Explicit i i) by (split; [destruct t; simpl; lia|discriminate]). ev.
  - intros k Hk. apply row_order_in in Hk; [|lia]. destruct Hk as (Q1 & Q2 & Q3). assert (stored t d i k) by (split; auto). ev.
Qed.
Lemma trmm_right_inplace_row : forall (m1 m2 : mem O) A1 A2 t d C1 C2 a1 a2 c1 c2,
  ext0 A1 = ext1 A1 -> ext1 C1 = ext0 A1 ->
  mat_holds_on m1 A1 (stored t d) a1 -> mat_holds m1 C1 c1 -> mwritable C1 ->
  disjoint (mcells_on A1 (stored t d)) (mcells C1) ->
  ext0 A2 = ext1 A2 -> ext1 C2 = ext0 A2 ->
  mat_holds_on m2 A2 (stored t d) a2 -> mat_holds m2 C2 c2 -> mwritable C2 ->
  disjoint (mcells_on A2 (stored t d)) (mcells C2) ->
  succeeds (triangular_matrix_right_product A1 t d C1) m1 (fun _ m1' =>
  succeeds (triangular_matrix_right_product A2 t d C2) m2 (fun _ m2' =>
    exists r1 r2, mat_holds m1' C1 r1 /\ mat_holds m2' C2 r2 /\
    forall i1 i2 j, i1 < ext0 C1 -> j < ext1 C1 -> i2 < ext0 C2 -> j < ext1 C2 ->
      ext1 A1 = ext1 A2 -> (forall k, k < ext1 A1 -> stored t d k j -> a1 k j = a2 k j) -> (forall k, k < ext1 A1 -> in_tri t k j -> c1 i1 k = c2 i2 k) ->
      r1 i1 j = r2 i2 j)).
Proof.
  intros m1 m2 A1 A2 t d C1 C2 a1 a2 c1 c2; intros. eapply wp_conseq; [apply trmm_right_inplace_exact; eauto|]. intros [] m1' [K1 _].
  eapply wp_conseq; [apply trmm_right_inplace_exact; eauto|]. intros [] m2' [K2 _].
  do 2 eexists; split; [exact K1|split; [exact K2|]]. cbv beta. intros i1 i2 j; intros. assert (in_tri t j j) by (destruct t; simpl; lia). apply (added_gr eq_graded); [congruence| |].
  - apply (@diag_gr O eq); [intros ->|intros; ev]. assert (stored t Explicit j j) by (split; [destruct t; simpl; lia|discriminate]). ev.
  - intros k Hk. apply col_order_in in Hk; [|lia]. destruct Hk as (Q1 & Q2 & Q3). assert (stored t d k j) by (split; auto). ev.
Qed.
Lemma syrk_row : forall (m1 m2 : mem O) A1 A2 C1 C2 t a1 a2 c1 c2,
  ext0 C1 = ext1 C1 -> ext0 A1 = ext0 C1 ->
  mat_holds m1 A1 a1 -> mat_holds_on m1 C1 (in_tri t) c1 -> mwritable_on C1 (in_tri t) ->
  disjoint (mcells A1) (mcells_on C1 (in_tri t)) ->
  ext0 C2 = ext1 C2 -> ext0 A2 = ext0 C2 ->
  mat_holds m2 A2 a2 -> mat_holds_on m2 C2 (in_tri t) c2 -> mwritable_on C2 (in_tri t) ->
  disjoint (mcells A2) (mcells_on C2 (in_tri t)) ->
  succeeds (symmetric_matrix_rank_k_update A1 C1 t) m1 (fun _ m1' =>
  succeeds (symmetric_matrix_rank_k_update A2 C2 t) m2 (fun _ m2' =>
    exists r1 r2, mat_holds_on m1' C1 (in_tri t) r1 /\ mat_holds_on m2' C2 (in_tri t) r2 /\
    forall i1 i2 j1 j2, i1 < ext0 C1 -> j1 < ext1 C1 -> i2 < ext0 C2 -> j2 < ext1 C2 -> in_tri t i1 j1 -> in_tri t i2 j2 ->
      ext1 A1 = ext1 A2 -> c1 i1 j1 = c2 i2 j2 -> (forall k, k < ext1 A1 -> a1 i1 k = a2 i2 k) -> (forall k, k < ext1 A1 -> a1 j1 k = a2 j2 k) ->
      r1 i1 j1 = r2 i2 j2)).
Proof.
  intros m1 m2 A1 A2 C1 C2 t a1 a2 c1 c2; intros. eapply wp_conseq; [apply syrk_ok; eauto|]. intros [] m1' [K1 _].
  eapply wp_conseq; [apply syrk_ok; eauto|]. intros [] m2' [K2 _].
  do 2 eexists; split; [exact K1|split; [exact K2|]]. cbv beta. intros i1 i2 j1 j2; intros. ev.
Qed.
Lemma herk_row : forall (m1 m2 : mem O) A1 A2 C1 C2 t a1 a2 c1 c2,
  ext0 C1 = ext1 C1 -> ext0 A1 = ext0 C1 ->
  mat_holds m1 A1 a1 -> mat_holds_on m1 C1 (in_tri t) c1 -> mwritable_on C1 (in_tri t) ->
  disjoint (mcells A1) (mcells_on C1 (in_tri t)) ->
  ext0 C2 = ext1 C2 -> ext0 A2 = ext0 C2 ->
  mat_holds m2 A2 a2 -> mat_holds_on m2 C2 (in_tri t) c2 -> mwritable_on C2 (in_tri t) ->
  disjoint (mcells A2) (mcells_on C2 (in_tri t)) ->
  succeeds (hermitian_matrix_rank_k_update A1 C1 t) m1 (fun _ m1' =>
  succeeds (hermitian_matrix_rank_k_update A2 C2 t) m2 (fun _ m2' =>
    exists r1 r2, mat_holds_on m1' C1 (in_tri t) r1 /\ mat_holds_on m2' C2 (in_tri t) r2 /\
    forall i1 i2 j1 j2, i1 < ext0 C1 -> j1 < ext1 C1 -> i2 < ext0 C2 -> j2 < ext1 C2 -> in_tri t i1 j1 -> in_tri t i2 j2 ->
      (i1 = j1 <-> i2 = j2) -> ext1 A1 = ext1 A2 -> c1 i1 j1 = c2 i2 j2 -> (forall k, k < ext1 A1 -> a1 i1 k = a2 i2 k) -> (forall k, k < ext1 A1 -> a1 j1 k = a2 j2 k) ->
      r1 i1 j1 = r2 i2 j2)).
Proof.
  intros m1 m2 A1 A2 C1 C2 t a1 a2 c1 c2; intros. eapply wp_conseq; [apply herk_ok; eauto|]. intros [] m1' [K1 _].
  eapply wp_conseq; [apply herk_ok; eauto|]. intros [] m2' [K2 _].
  do 2 eexists; split; [exact K1|split; [exact K2|]]. cbv beta. intros i1 i2 j1 j2; intros. ev.
Qed.
Lemma syr2k_row : forall (m1 m2 : mem O) A1 A2 B1 B2 C1 C2 t a1 a2 b1 b2 c1 c2,
  ext0 C1 = ext1 C1 -> ext0 A1 = ext0 C1 -> ext0 B1 = ext0 C1 -> ext1 B1 = ext1 A1 ->
  mat_holds m1 A1 a1 -> mat_holds m1 B1 b1 -> mat_holds_on m1 C1 (in_tri t) c1 -> mwritable_on C1 (in_tri t) ->
  disjoint (mcells A1) (mcells_on C1 (in_tri t)) -> disjoint (mcells B1) (mcells_on C1 (in_tri t)) ->
  ext0 C2 = ext1 C2 -> ext0 A2 = ext0 C2 -> ext0 B2 = ext0 C2 -> ext1 B2 = ext1 A2 ->
  mat_holds m2 A2 a2 -> mat_holds m2 B2 b2 -> mat_holds_on m2 C2 (in_tri t) c2 -> mwritable_on C2 (in_tri t) ->
  disjoint (mcells A2) (mcells_on C2 (in_tri t)) -> disjoint (mcells B2) (mcells_on C2 (in_tri t)) ->
  succeeds (symmetric_matrix_rank_2k_update A1 B1 C1 t) m1 (fun _ m1' =>
  succeeds (symmetric_matrix_rank_2k_update A2 B2 C2 t) m2 (fun _ m2' =>
    exists r1 r2, mat_holds_on m1' C1 (in_tri t) r1 /\ mat_holds_on m2' C2 (in_tri t) r2 /\
    forall i1 i2 j1 j2, i1 < ext0 C1 -> j1 < ext1 C1 -> i2 < ext0 C2 -> j2 < ext1 C2 -> in_tri t i1 j1 -> in_tri t i2 j2 ->
      ext1 A1 = ext1 A2 -> c1 i1 j1 = c2 i2 j2 -> (forall k, k < ext1 A1 -> a1 i1 k = a2 i2 k) -> (forall k, k < ext1 A1 -> a1 j1 k = a2 j2 k) -> (forall k, k < ext1 A1 -> b1 i1 k = b2 i2 k) -> (forall k, k < ext1 A1 -> b1 j1 k = b2 j2 k) ->
      r1 i1 j1 = r2 i2 j2)).
Proof.
  intros m1 m2 A1 A2 B1 B2 C1 C2 t a1 a2 b1 b2 c1 c2; intros. eapply wp_conseq; [apply syr2k_ok; eauto|]. intros [] m1' [K1 _].
  eapply wp_conseq; [apply syr2k_ok; eauto|]. intros [] m2' [K2 _].
  do 2 eexists; split; [exact K1|split; [exact K2|]]. cbv beta. intros i1 i2 j1 j2; intros. ev.
Qed.
Lemma her2k_row : forall (m1 m2 : mem O) A1 A2 B1 B2 C1 C2 t a1 a2 b1 b2 c1 c2,
  ext0 C1 = ext1 C1 -> ext0 A1 = ext0 C1 -> ext0 B1 = ext0 C1 -> ext1 B1 = ext1 A1 ->
  mat_holds m1 A1 a1 -> mat_holds m1 B1 b1 -> mat_holds_on m1 C1 (in_tri t) c1 -> mwritable_on C1 (in_tri t) ->
  disjoint (mcells A1) (mcells_on C1 (in_tri t)) -> disjoint (mcells B1) (mcells_on C1 (in_tri t)) ->
  ext0 C2 = ext1 C2 -> ext0 A2 = ext0 C2 -> ext0 B2 = ext0 C2 -> ext1 B2 = ext1 A2 ->
  mat_holds m2 A2 a2 -> mat_holds m2 B2 b2 -> mat_holds_on m2 C2 (in_tri t) c2 -> mwritable_on C2 (in_tri t) ->
  disjoint (mcells A2) (mcells_on C2 (in_tri t)) -> disjoint (mcells B2) (mcells_on C2 (in_tri t)) ->
  succeeds (hermitian_matrix_rank_2k_update A1 B1 C1 t) m1 (fun _ m1' =>
  succeeds (hermitian_matrix_rank_2k_update A2 B2 C2 t) m2 (fun _ m2' =>
    exists r1 r2, mat_holds_on m1' C1 (in_tri t) r1 /\ mat_holds_on m2' C2 (in_tri t) r2 /\
    forall i1 i2 j1 j2, i1 < ext0 C1 -> j1 < ext1 C1 -> i2 < ext0 C2 -> j2 < ext1 C2 -> in_tri t i1 j1 -> in_tri t i2 j2 ->
      (i1 = j1 <-> i2 = j2) -> ext1 A1 = ext1 A2 -> c1 i1 j1 = c2 i2 j2 -> (forall k, k < ext1 A1 -> a1 i1 k = a2 i2 k) -> (forall k, k < ext1 A1 -> a1 j1 k = a2 j2 k) -> (forall k, k < ext1 A1 -> b1 i1 k = b2 i2 k) -> (forall k, k < ext1 A1 -> b1 j1 k = b2 j2 k) ->
      r1 i1 j1 = r2 i2 j2)).
Proof.
  intros m1 m2 A1 A2 B1 B2 C1 C2 t a1 a2 b1 b2 c1 c2; intros. eapply wp_conseq; [apply her2k_ok; eauto|]. intros [] m1' [K1 _].
  eapply wp_conseq; [apply her2k_ok; eauto|]. intros [] m2' [K2 _].
  do 2 eexists; split; [exact K1|split; [exact K2|]]. cbv beta. intros i1 i2 j1 j2; intros. ev.
Qed.
Lemma trsv_row : forall ty (m1 m2 : mem O) A1 A2 t d B1 B2 X1 X2 a1 a2 b1 b2,
  fits ty (ext0 A1) -> (ext0 A1 = 0 -> t = Upper -> ty <> U32) ->
  ext0 A1 = ext1 A1 -> vext B1 = ext0 A1 -> vext X1 = ext0 A1 ->
  mat_holds_on m1 A1 (stored t d) a1 -> vec_holds m1 B1 b1 -> vwritable X1 -> allocated m1 (vcells X1) ->
  disjoint (mcells_on A1 (stored t d)) (vcells X1) -> disjoint_or_aligned_v B1 X1 ->
  fits ty (ext0 A2) -> (ext0 A2 = 0 -> t = Upper -> ty <> U32) ->
  ext0 A2 = ext1 A2 -> vext B2 = ext0 A2 -> vext X2 = ext0 A2 ->
  mat_holds_on m2 A2 (stored t d) a2 -> vec_holds m2 B2 b2 -> vwritable X2 -> allocated m2 (vcells X2) ->
  disjoint (mcells_on A2 (stored t d)) (vcells X2) -> disjoint_or_aligned_v B2 X2 ->
  succeeds (triangular_matrix_vector_solve ty A1 t d B1 X1) m1 (fun _ m1' =>
  succeeds (triangular_matrix_vector_solve ty A2 t d B2 X2) m2 (fun _ m2' =>
    exists r1 r2, vec_holds m1' X1 r1 /\ vec_holds m2' X2 r2 /\
    forall i, i < vext X1 -> i < vext X2 ->
      ext1 A1 = ext1 A2 -> (forall p k, p < ext0 A1 -> k < ext1 A1 -> in_tri t i p -> stored t d p k -> a1 p k = a2 p k) -> (forall p, p < ext0 A1 -> in_tri t i p -> b1 p = b2 p) ->
      r1 i = r2 i)).
Proof.
  intros ty m1 m2 A1 A2 t d B1 B2 X1 X2 a1 a2 b1 b2; intros. eapply wp_conseq; [apply trsv_subst with (a := a1) (b := b1); eauto|]. intros [] m1' [(q1 & K1 & E1) _].
  eapply wp_conseq; [apply trsv_subst with (a := a2) (b := b2); eauto|]. intros [] m2' [(q2 & K2 & E2) _].
  exists q1, q2; split; [exact K1|split; [exact K2|]]. intros i; intros.
  apply (@subst_eq O t d (ext0 A1) (ext0 A2) a1 a2 b1 b2 q1 q2 i); auto; try lia; intros; try ev; destruct t; simpl; lia.
Qed.
Lemma trsm_left_row : forall ty (m1 m2 : mem O) A1 A2 t d B1 B2 X1 X2 a1 a2 b1 b2,
  fits ty (ext0 A1) -> (ext0 A1 = 0 -> t = Upper -> ty <> U32) ->
  ext0 A1 = ext1 A1 -> ext0 B1 = ext0 A1 -> ext0 X1 = ext0 A1 -> ext1 X1 = ext1 B1 ->
  mat_holds_on m1 A1 (stored t d) a1 -> mat_holds m1 B1 b1 -> mwritable X1 -> allocated m1 (mcells X1) ->
  disjoint (mcells_on A1 (stored t d)) (mcells X1) -> disjoint_or_aligned_m B1 X1 ->
  fits ty (ext0 A2) -> (ext0 A2 = 0 -> t = Upper -> ty <> U32) ->
  ext0 A2 = ext1 A2 -> ext0 B2 = ext0 A2 -> ext0 X2 = ext0 A2 -> ext1 X2 = ext1 B2 ->
  mat_holds_on m2 A2 (stored t d) a2 -> mat_holds m2 B2 b2 -> mwritable X2 -> allocated m2 (mcells X2) ->
  disjoint (mcells_on A2 (stored t d)) (mcells X2) -> disjoint_or_aligned_m B2 X2 ->
  succeeds (triangular_matrix_matrix_left_solve ty A1 t d B1 X1) m1 (fun _ m1' =>
  succeeds (triangular_matrix_matrix_left_solve ty A2 t d B2 X2) m2 (fun _ m2' =>
    exists r1 r2, mat_holds m1' X1 r1 /\ mat_holds m2' X2 r2 /\
    forall i j1 j2, i < ext0 X1 -> j1 < ext1 X1 -> i < ext0 X2 -> j2 < ext1 X2 ->
      ext1 A1 = ext1 A2 -> (forall p k, p < ext0 A1 -> k < ext1 A1 -> in_tri t i p -> stored t d p k -> a1 p k = a2 p k) -> (forall p, p < ext0 A1 -> in_tri t i p -> b1 p j1 = b2 p j2) ->
      r1 i j1 = r2 i j2)).
Proof.
  intros ty m1 m2 A1 A2 t d B1 B2 X1 X2 a1 a2 b1 b2; intros. eapply wp_conseq; [apply trsm_left_subst with (a := a1) (b := b1); eauto|]. intros [] m1' [(q1 & K1 & E1) _].
  eapply wp_conseq; [apply trsm_left_subst with (a := a2) (b := b2); eauto|]. intros [] m2' [(q2 & K2 & E2) _].
  exists q1, q2; split; [exact K1|split; [exact K2|]]. intros i j1 j2; intros.
  apply (@subst_eq O t d (ext0 A1) (ext0 A2) a1 a2 (fun k => b1 k j1) (fun k => b2 k j2) (fun k => q1 k j1) (fun k => q2 k j2) i); auto; try lia; intros; try ev; try solve [destruct t; simpl; lia]; [apply E1|apply E2]; lia.
Qed.
Lemma trsm_right_row : forall ty (m1 m2 : mem O) A1 A2 t d B1 B2 X1 X2 a1 a2 b1 b2,
  (t = Lower -> fits (make_signed ty) (ext0 A1)) ->
  ext0 A1 = ext1 A1 -> ext1 B1 = ext0 A1 -> ext1 X1 = ext0 A1 -> ext0 X1 = ext0 B1 ->
  mat_holds_on m1 A1 (stored t d) a1 -> mat_holds m1 B1 b1 -> mwritable X1 -> allocated m1 (mcells X1) ->
  disjoint (mcells_on A1 (stored t d)) (mcells X1) -> disjoint_or_aligned_m B1 X1 ->
  (t = Lower -> fits (make_signed ty) (ext0 A2)) ->
  ext0 A2 = ext1 A2 -> ext1 B2 = ext0 A2 -> ext1 X2 = ext0 A2 -> ext0 X2 = ext0 B2 ->
  mat_holds_on m2 A2 (stored t d) a2 -> mat_holds m2 B2 b2 -> mwritable X2 -> allocated m2 (mcells X2) ->
  disjoint (mcells_on A2 (stored t d)) (mcells X2) -> disjoint_or_aligned_m B2 X2 ->
  succeeds (triangular_matrix_matrix_right_solve ty A1 t d B1 X1) m1 (fun _ m1' =>
  succeeds (triangular_matrix_matrix_right_solve ty A2 t d B2 X2) m2 (fun _ m2' =>
    exists r1 r2, mat_holds m1' X1 r1 /\ mat_holds m2' X2 r2 /\
    forall i1 i2 j, i1 < ext0 X1 -> j < ext1 X1 -> i2 < ext0 X2 -> j < ext1 X2 ->
      ext1 A1 = ext1 A2 -> (forall p k, p < ext0 A1 -> k < ext1 A1 -> in_tri t k j -> stored t d p k -> a1 p k = a2 p k) -> (forall p, p < ext0 A1 -> in_tri t p j -> b1 i1 p = b2 i2 p) ->
      r1 i1 j = r2 i2 j)).
Proof.
  intros ty m1 m2 A1 A2 t d B1 B2 X1 X2 a1 a2 b1 b2; intros. eapply wp_conseq; [apply trsm_right_subst with (a := a1) (b := b1); eauto|]. intros [] m1' [(q1 & K1 & E1) _].
  eapply wp_conseq; [apply trsm_right_subst with (a := a2) (b := b2); eauto|]. intros [] m2' [(q2 & K2 & E2) _].
  exists q1, q2; split; [exact K1|split; [exact K2|]]. intros i1 i2 j; intros.
  apply (@subst_r_eq O t d (ext0 A1) (ext0 A2) a1 a2 (fun k => b1 i1 k) (fun k => b2 i2 k) (fun k => q1 i1 k) (fun k => q2 i2 k) j); auto; try lia; intros; try ev; try solve [destruct t; simpl; lia]; [apply E1|apply E2]; lia.
Qed.
End Rows.

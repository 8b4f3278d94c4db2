(** Elements that spoil every result they enter. *)
From Coq Require Import List Arith ZArith Lia Bool.
From Verif Require Import Mem Scalar View Spec SpecSub SpecInp SpecNan Idx Wp Loops Sums Blas1 Blas2 Blas3
  PfBlas1 PfBlas2 PfTrmv PfTrsv PfRank PfBlas3 PfTrsm PfSub PfInplace.
Import ListNotations.
Set Implicit Arguments.
Local Open Scope sc_scope.

Section Bad.
Context {O : ops} (bad : O -> Prop) (H : absorbing O bad).

Lemma fold_init : forall (op : O -> O -> O) (Hop : forall u v, bad u -> bad (op u v)) l (s : O) (f : nat -> O), bad s -> bad (fold_left (fun s k => op s (f k)) l s).
Proof. intros op Hop l. induction l; simpl; auto. Qed.
Lemma fold_term : forall (op : O -> O -> O) (Hop : forall u v, bad u \/ bad v -> bad (op u v)) l (s : O) (f : nat -> O) k,
  In k l -> bad (f k) -> bad (fold_left (fun s k => op s (f k)) l s).
Proof.
  intros op Hop l. induction l as [|j l IH]; intros s f k Hk Hb; simpl in *; [tauto|].
  destruct Hk as [->|Hk]; [apply (fold_init op); auto|eauto].
Qed.
Lemma sum_init : forall (s : O) lo n f, bad s -> bad (sum_from s lo n f).
Proof. intros. unfold sum_from. apply (fold_init add); auto. intros; apply (ab_add H); auto. Qed.
Lemma sum_term : forall k (s : O) lo n f, lo <= k < lo + n -> bad (f k) -> bad (sum_from s lo n f).
Proof. intros. unfold sum_from. apply (@fold_term add (ab_add H) _ _ _ k); auto. apply in_seq; auto. Qed.
Lemma big_term : forall k n (f : nat -> O), k < n -> bad (f k) -> bad (bigsum n f).
Proof. intros. apply (@sum_term k); auto. lia. Qed.
Lemma added_init : forall (s : O) l f, bad s -> bad (added s l f).
Proof. intros. unfold added. apply (fold_init add); auto. intros; apply (ab_add H); auto. Qed.
Lemma added_term : forall k (s : O) l f, In k l -> bad (f k) -> bad (added s l f).
Proof. intros. unfold added. apply (@fold_term add (ab_add H) _ _ _ k); auto. Qed.
Lemma diffs_init : forall (s : O) lo n f, bad s -> bad (diffs s lo n f).
Proof. intros. unfold diffs. apply (fold_init sub); auto. intros; apply (ab_sub H); auto. Qed.
Lemma diffs_term : forall k (s : O) lo n f, lo <= k < lo + n -> bad (f k) -> bad (diffs s lo n f).
Proof. intros. unfold diffs. apply (@fold_term sub (ab_sub H) _ _ _ k); auto. apply in_seq; auto. Qed.

Lemma sym_bad : forall t (a : nat -> nat -> O) i k, in_tri t i k -> bad (a i k) -> bad (sym_of t a i k) /\ bad (sym_of t a k i).
Proof.
  intros t a i k Ht Hb. unfold sym_of, in_tri_b. destruct (Nat.eq_dec i k) as [->|N]; [destruct t; rewrite Nat.leb_refl; auto|].
  destruct t; simpl in Ht; split; repeat match goal with |- context [?x <=? ?y] => destruct (Nat.leb_spec x y) end; auto; lia.
Qed.
Lemma herm_bad : forall t (a : nat -> nat -> O) i k, in_tri t i k -> bad (a i k) -> bad (herm_of t a i k) /\ bad (herm_of t a k i).
Proof.
  intros t a i k Ht Hb. unfold herm_of, in_tri_b. destruct (Nat.eqb_spec i k) as [->|N].
  - rewrite Nat.eqb_refl. split; apply (ab_re H); auto.
  - replace (k =? i) with false by (symmetry; apply Nat.eqb_neq; auto).
    pose proof (ab_conj H _ Hb). destruct t; simpl in Ht; split;
    repeat match goal with |- context [?x <=? ?y] => destruct (Nat.leb_spec x y) end; auto; lia.
Qed.
Lemma herm_raw_bad : forall t (a : nat -> nat -> O) i k, in_tri t i k -> bad (a i k) -> bad (herm_raw t a i k) /\ bad (herm_raw t a k i).
Proof.
  intros t a i k Ht Hb. unfold herm_raw, in_tri_b. pose proof (ab_conj H _ Hb).
  destruct (Nat.eq_dec i k) as [->|N]; [destruct t; rewrite Nat.leb_refl; auto|].
  destruct t; simpl in Ht; split; repeat match goal with |- context [?x <=? ?y] => destruct (Nat.leb_spec x y) end; auto; lia.
Qed.
Lemma tri_row_init : forall s t d n (a : nat -> nat -> O) f i, bad s -> bad (tri_row s t d n a f i).
Proof. intros. unfold tri_row. destruct t; apply sum_init; auto. Qed.
Lemma tri_row_term : forall k s t d n (a : nat -> nat -> O) f i, k < n -> in_tri t i k -> bad (f k) \/ (stored t d i k /\ bad (a i k)) -> bad (tri_row s t d n a f i).
Proof.
  intros k s t d n a f i Hk Ht Hb. assert (B : bad (tri_term d a f i k)).
  { unfold tri_term. destruct (Nat.eqb_spec i k) as [->|N]; [destruct d|].
    - apply (ab_mul H). tauto.
    - destruct Hb as [|[[_ S] _]]; auto. exfalso; apply S; auto.
    - apply (ab_mul H). tauto. }
  unfold tri_row. destruct t; simpl in Ht; apply (@sum_term k); auto; lia.
Qed.
Lemma tri_elem_term : forall k t d n i (e : nat -> O) last, k < n -> i < n -> in_tri t i k ->
  (stored t d i k -> bad (e k)) -> (k = i -> d = ImplicitUnit -> bad last) -> bad (tri_elem (is_lower t) d n i e last).
Proof.
  intros k t d n i e last Hk Hi Ht He Hl. unfold tri_elem. destruct d; simpl.
  - assert (bad (e k)) by (apply He; split; auto; discriminate).
    apply (@sum_term k); auto. destruct t; simpl in *; lia.
  - destruct (Nat.eq_dec k i) as [->|N]; [apply (ab_add H); auto|].
    assert (bad (e k)) by (apply He; split; auto).
    apply (ab_add H). left. apply (@sum_term k); auto. destruct t; simpl in *; lia.
Qed.
Lemma row_term : forall k t d n i (a : nat -> nat -> O) f (dg : O), k < n -> i < n -> in_tri t i k ->
  (bad (f i) -> bad dg) -> (bad (a i i) -> bad dg) ->
  bad (f k) \/ (stored t d i k /\ bad (a i k)) -> bad (added (times_diag d dg (f i)) (row_order t n i) (fun j => a i j * f j)).
Proof.
  intros k t d n i a f dg Hk Hi Ht D1 D2 Hb. destruct (Nat.eq_dec k i) as [->|N].
  - apply added_init. unfold times_diag. destruct d; [tauto|]. destruct Hb as [|[[_ S] _]]; auto. exfalso; apply S; auto.
  - apply (@added_term k); [|apply (ab_mul H); tauto].
    unfold row_order. destruct t; simpl in Ht; [apply in_rev; rewrite rev_involutive|]; apply in_seq; lia.
Qed.
Lemma col_term : forall k t d n j (a : nat -> nat -> O) f (dg : O), k < n -> j < n -> in_tri t k j ->
  (bad (f j) -> bad dg) -> (bad (a j j) -> bad dg) ->
  bad (f k) \/ (stored t d k j /\ bad (a k j)) -> bad (added (times_diag d dg (f j)) (col_order t n j) (fun k => f k * a k j)).
Proof.
  intros k t d n j a f dg Hk Hj Ht D1 D2 Hb. destruct (Nat.eq_dec k j) as [->|N].
  - apply added_init. unfold times_diag. destruct d; [tauto|]. destruct Hb as [|[[_ S] _]]; auto. exfalso; apply S; auto.
  - apply (@added_term k); [|apply (ab_mul H); tauto].
    unfold col_order. destruct t; simpl in Ht; apply in_seq; lia.
Qed.
(** substitution *)
Lemma subst_own : forall t d n (a : nat -> nat -> O) b x i, bad (b i) -> bad (subst_value div t d n a b x i).
Proof. intros. unfold subst_value. destruct d; [apply (ab_div H); left|]; apply diffs_init; auto. Qed.
Lemma subst_diag : forall t n (a : nat -> nat -> O) b x i, bad (a i i) -> bad (subst_value div t Explicit n a b x i).
Proof. intros. unfold subst_value. apply (ab_div H); auto. Qed.
Lemma subst_term : forall k t d n (a : nat -> nat -> O) b x i, i < n -> k < n -> k <> i -> in_tri t i k -> bad (a i k) \/ bad (x k) -> bad (subst_value div t d n a b x i).
Proof.
  intros k t d n a b x i Hi Hk N Ht Hb. assert (bad (diffs (b i) (sub_lo t i) (sub_len t n i) (fun j => a i j * x j))).
  { apply (@diffs_term k); [|apply (ab_mul H); auto]. destruct t; simpl in *; lia. }
  unfold subst_value. destruct d; [apply (ab_div H); left|]; auto.
Qed.
Lemma subst_bad : forall t d n (a : nat -> nat -> O) b x, (forall i, i < n -> x i = subst_value div t d n a b x i) ->
  (forall i k, i < n -> k < n -> in_tri t i k -> bad (b k) -> bad (x i)) /\
  (forall i k l, i < n -> k < n -> l < n -> in_tri t i k -> stored t d k l -> bad (a k l) -> bad (x i)).
Proof.
  intros t d n a b x Hx.
  assert (K : forall i k, i < n -> k < n -> in_tri t i k -> bad (x k) -> bad (x i)).
  { intros i k Hi Hk Ht Hb. destruct (Nat.eq_dec k i) as [->|N]; auto. rewrite Hx by auto. apply (@subst_term k); auto. }
  split.
  - intros i k Hi Hk Ht Hb. apply (K i k); auto. rewrite Hx by auto. apply subst_own; auto.
  - intros i k l Hi Hk Hl Ht [S1 S2] Hb. apply (K i k); auto. rewrite Hx by auto.
    destruct (Nat.eq_dec k l) as [->|N]; [destruct d; [apply subst_diag; auto|exfalso; apply S2; auto]|].
    apply (@subst_term l); auto.
Qed.
Lemma subst_own_r : forall t d n (a : nat -> nat -> O) b x i, bad (b i) -> bad (subst_value_r t d n a b x i).
Proof. intros. unfold subst_value_r. destruct d; [apply (ab_div H); left|]; apply diffs_init; auto. Qed.
Lemma subst_diag_r : forall t n (a : nat -> nat -> O) b x i, bad (a i i) -> bad (subst_value_r t Explicit n a b x i).
Proof. intros. unfold subst_value_r. apply (ab_div H); auto. Qed.
Lemma subst_term_r : forall k t d n (a : nat -> nat -> O) b x j, j < n -> k < n -> k <> j -> in_tri t k j -> bad (a k j) \/ bad (x k) -> bad (subst_value_r t d n a b x j).
Proof.
  intros k t d n a b x j Hj Hk N Ht Hb. unfold subst_value_r.
  assert (bad (diffs (b j) (sub_lo (match t with Lower => Upper | Upper => Lower end) j) (sub_len (match t with Lower => Upper | Upper => Lower end) n j) (fun k => x k * a k j))).
  { apply (@diffs_term k); [|apply (ab_mul H); tauto]. destruct t; simpl in *; lia. }
  destruct d; [apply (ab_div H); left|]; auto.
Qed.
Lemma subst_bad_r : forall t d n (a : nat -> nat -> O) b x, (forall i, i < n -> x i = subst_value_r t d n a b x i) ->
  (forall j k, j < n -> k < n -> in_tri t k j -> bad (b k) -> bad (x j)) /\
  (forall j k l, j < n -> k < n -> l < n -> in_tri t k j -> stored t d l k -> bad (a l k) -> bad (x j)).
Proof.
  intros t d n a b x Hx.
  assert (K : forall i k, i < n -> k < n -> in_tri t k i -> bad (x k) -> bad (x i)).
  { intros i k Hi Hk Ht Hb. destruct (Nat.eq_dec k i) as [->|N]; auto. rewrite Hx by auto. apply (@subst_term_r k); auto. }
  split.
  - intros i k Hi Hk Ht Hb. apply (K i k); auto. rewrite Hx by auto. apply subst_own_r; auto.
  - intros i k l Hi Hk Hl Ht [S1 S2] Hb. apply (K i k); auto. rewrite Hx by auto.
    destruct (Nat.eq_dec l k) as [->|N]; [destruct d; [apply subst_diag_r; auto|exfalso; apply S2; auto]|].
    apply (@subst_term_r l); auto.
Qed.

Ltac spoil := first [assumption | apply (ab_add H); first [left; spoil | right; spoil] | apply (ab_sub H); first [left; spoil | right; spoil]
  | apply (ab_mul H); first [left; spoil | right; spoil] | apply (ab_conj H); spoil | apply (ab_re H); spoil
  | match goal with |- bad (if ?b then _ else _) => destruct b; spoil end
  | match goal with Ht : in_tri _ _ _ |- bad (herm_of ?t ?a ?i ?j) => apply (@herm_bad t a i j Ht); spoil end
  | apply sum_init; spoil
  | match goal with K : ?k < _ |- bad (sum_from _ _ _ _) => apply (@sum_term k); [lia|spoil] end
  | match goal with K : ?k < _ |- bad (bigsum _ _) => apply (@big_term k); [lia|spoil] end].
Ltac spoils := intros; repeat match goal with K : _ \/ _ |- _ => destruct K as [K|K] end; repeat split; spoil.

Lemma scale_bad : forall (m : mem O) alpha x f,
  vec_holds m x f -> vwritable x ->
  succeeds (scale_1 alpha x) m (fun _ m' =>
    (exists r, vec_holds m' x r /\
     forall i, i < vext x -> bad alpha \/ bad (f i) -> bad (r i)) /\
    changes_only m m' (vcells x)).
Proof.
  intros m alpha x f; intros. eapply wp_conseq; [apply scale_1_ok; eauto|]. intros [] m' [K1 K2]. split; auto.
  eexists; split; [exact K1|]. cbv beta. spoils.
Qed.
Lemma scale_2_bad : forall (m : mem O) alpha x f,
  mat_holds m x f -> mwritable x ->
  succeeds (scale_2 alpha x) m (fun _ m' =>
    (exists r, mat_holds m' x r /\
     forall i j, i < ext0 x -> j < ext1 x -> bad alpha \/ bad (f i j) -> bad (r i j)) /\
    changes_only m m' (mcells x)).
Proof.
  intros m alpha x f; intros. eapply wp_conseq; [apply scale_2_ok; eauto|]. intros [] m' [K1 K2]. split; auto.
  eexists; split; [exact K1|]. cbv beta. spoils.
Qed.
Lemma add_bad : forall (m : mem O) x y z f g,
  vext x = vext z -> vext y = vext z -> vec_holds m x f -> vec_holds m y g ->
  vwritable z -> allocated m (vcells z) -> disjoint_or_aligned_v x z -> disjoint_or_aligned_v y z ->
  succeeds (add_1 x y z) m (fun _ m' =>
    (exists r, vec_holds m' z r /\
     forall i, i < vext z -> bad (f i) \/ bad (g i) -> bad (r i)) /\
    changes_only m m' (vcells z)).
Proof.
  intros m x y z f g; intros. eapply wp_conseq; [apply add_1_ok; eauto|]. intros [] m' [K1 K2]. split; auto.
  eexists; split; [exact K1|]. cbv beta. spoils.
Qed.
Lemma add_2_bad : forall (m : mem O) x y z f g,
  ext0 x = ext0 z -> ext1 x = ext1 z -> ext0 y = ext0 z -> ext1 y = ext1 z ->
  mat_holds m x f -> mat_holds m y g ->
  mwritable z -> allocated m (mcells z) -> disjoint_or_aligned_m x z -> disjoint_or_aligned_m y z ->
  succeeds (add_2 x y z) m (fun _ m' =>
    (exists r, mat_holds m' z r /\
     forall i j, i < ext0 z -> j < ext1 z -> bad (f i j) \/ bad (g i j) -> bad (r i j)) /\
    changes_only m m' (mcells z)).
Proof.
  intros m x y z f g; intros. eapply wp_conseq; [apply add_2_ok; eauto|]. intros [] m' [K1 K2]. split; auto.
  eexists; split; [exact K1|]. cbv beta. spoils.
Qed.
Lemma dot_bad : forall (m : mem O) x y f g init,
  vext x = vext y -> vec_holds m x f -> vec_holds m y g ->
  succeeds (dot x y init) m (fun r m' =>
    (bad init -> bad r) /\
     (forall k, k < vext x -> bad (f k) \/ bad (g k) -> bad r) /\ m' = m).
Proof.
  intros m x y f g init; intros. eapply wp_conseq; [apply dot_ok; eauto|]. intros r m' [-> ->]. repeat split; spoils.
Qed.
Lemma dotc_bad : forall (m : mem O) fix_nc nc x y f g init,
  (forall v : O, conj (conj v) = v) -> (nc = true -> forall v : O, conj v = v) ->
  vext x = vext y -> vec_holds m x f -> vec_holds m y g ->
  succeeds (dotc fix_nc nc x y init) m (fun r m' =>
    (bad init -> bad r) /\
     (forall k, k < vext x -> bad (f k) \/ bad (g k) -> bad r) /\ m' = m).
Proof.
  intros m fix_nc nc x y f g init; intros. eapply wp_conseq; [apply dotc_ok; eauto|]. intros r m' [-> ->]. repeat split; spoils.
Qed.
Lemma givens_bad : forall (m : mem O) x y f g c s,
  vext x = vext y -> vec_holds m x f -> vec_holds m y g -> vwritable x -> vwritable y ->
  disjoint (vcells x) (vcells y) ->
  succeeds (apply_givens_rotation x y c s) m (fun _ m' =>
    (exists p q, vec_holds m' x p /\ vec_holds m' y q /\
     forall i, i < vext x -> bad c \/ bad s \/ bad (f i) \/ bad (g i) -> bad (p i) /\ bad (q i)) /\
    changes_only m m' (fun c => vcells x c \/ vcells y c)).
Proof.
  intros m x y f g c s; intros. eapply wp_conseq; [apply apply_givens_ok; eauto|]. intros [] m' (K1 & K2 & K3). split; auto.
  do 2 eexists; split; [exact K1|split; [exact K2|]]. spoils.
Qed.
Lemma gemv_bad : forall (m : mem O) A x y a f,
  vext x = ext1 A -> vext y = ext0 A ->
  mat_holds m A a -> vec_holds m x f -> vwritable y -> allocated m (vcells y) ->
  disjoint (mcells A) (vcells y) -> disjoint (vcells x) (vcells y) ->
  succeeds (matrix_vector_product A x y) m (fun _ m' =>
    (exists r, vec_holds m' y r /\
     forall i k, i < vext y -> k < ext1 A -> bad (a i k) \/ bad (f k) -> bad (r i)) /\
    changes_only m m' (vcells y)).
Proof.
  intros m A x y a f; intros. eapply wp_conseq; [apply gemv_ok; eauto|]. intros [] m' [K1 K2]. split; auto.
  eexists; split; [exact K1|]. cbv beta. spoils.
Qed.
Lemma gemv_upd_bad : forall (m : mem O) A x y z a f g,
  vext x = ext1 A -> vext y = ext0 A -> vext z = ext0 A ->
  mat_holds m A a -> vec_holds m x f -> vec_holds m y g -> vwritable z -> allocated m (vcells z) ->
  disjoint (mcells A) (vcells z) -> disjoint (vcells x) (vcells z) -> disjoint_or_aligned_v y z ->
  succeeds (matrix_vector_product_upd A x y z) m (fun _ m' =>
    (exists r, vec_holds m' z r /\
     (forall i, i < vext z -> bad (g i) -> bad (r i)) /\
     (forall i k, i < vext z -> k < ext1 A -> bad (a i k) \/ bad (f k) -> bad (r i))) /\
    changes_only m m' (vcells z)).
Proof.
  intros m A x y z a f g; intros. eapply wp_conseq; [apply gemv_upd_ok with (g := g); eauto|]. intros [] m' [K1 K2]. split; auto.
  eexists; split; [exact K1|]. cbv beta. split; spoils.
Qed.
Lemma symv_bad : forall (m : mem O) A t x y a f,
  ext0 A = ext1 A -> vext x = ext1 A -> vext y = ext0 A ->
  mat_holds_on m A (in_tri t) a -> vec_holds m x f -> vwritable y -> allocated m (vcells y) ->
  disjoint (mcells_on A (in_tri t)) (vcells y) -> disjoint (vcells x) (vcells y) ->
  succeeds (symmetric_matrix_vector_product A t x y) m (fun _ m' =>
    (exists r, vec_holds m' y r /\
     (forall i k, i < vext y -> k < ext1 A -> bad (f k) -> bad (r i)) /\
     (forall i k, i < vext y -> k < ext1 A -> in_tri t i k -> bad (a i k) -> bad (r i) /\ bad (r k))) /\
    changes_only m m' (vcells y)).
Proof.
  intros m A t x y a f; intros. eapply wp_conseq; [apply symv_ok; eauto|]. intros [] m' [K1 K2]. split; auto.
  eexists; split; [exact K1|]. cbv beta. split; [spoils|].
  intros i k Hi Hk Ht Hb. destruct (sym_bad t a i k Ht Hb). split; [apply (@big_term k); [lia|spoil]|apply (@big_term i); [lia|spoil]].
Qed.
Lemma symv_upd_bad : forall (m : mem O) A t x y z a f g,
  ext0 A = ext1 A -> vext x = ext1 A -> vext y = ext0 A -> vext z = ext0 A ->
  mat_holds_on m A (in_tri t) a -> vec_holds m x f -> vec_holds m y g -> vwritable z -> allocated m (vcells z) ->
  disjoint (mcells_on A (in_tri t)) (vcells z) -> disjoint (vcells x) (vcells z) -> disjoint_or_aligned_v y z ->
  succeeds (symmetric_matrix_vector_product_upd A t x y z) m (fun _ m' =>
    (exists r, vec_holds m' z r /\
     (forall i, i < vext z -> bad (g i) -> bad (r i)) /\
     (forall i k, i < vext z -> k < ext1 A -> bad (f k) -> bad (r i)) /\
     (forall i k, i < vext z -> k < ext1 A -> in_tri t i k -> bad (a i k) -> bad (r i) /\ bad (r k))) /\
    changes_only m m' (vcells z)).
Proof.
  intros m A t x y z a f g; intros. eapply wp_conseq; [apply symv_upd_ok with (g := g); eauto|]. intros [] m' [K1 K2]. split; auto.
  eexists; split; [exact K1|]. cbv beta. split; [spoils|split; [spoils|]].
  intros i k Hi Hk Ht Hb. destruct (sym_bad t a i k Ht Hb). split; [apply (@sum_term k); [lia|spoil]|apply (@sum_term i); [lia|spoil]].
Qed.
Lemma hemv_bad : forall (m : mem O) A t x y a f,
  ext0 A = ext1 A -> vext x = ext1 A -> vext y = ext0 A ->
  mat_holds_on m A (in_tri t) a -> vec_holds m x f -> vwritable y -> allocated m (vcells y) ->
  disjoint (mcells_on A (in_tri t)) (vcells y) -> disjoint (vcells x) (vcells y) ->
  succeeds (hermitian_matrix_vector_product A t x y) m (fun _ m' =>
    (exists r, vec_holds m' y r /\
     (forall i k, i < vext y -> k < ext1 A -> bad (f k) -> bad (r i)) /\
     (forall i k, i < vext y -> k < ext1 A -> in_tri t i k -> bad (a i k) -> bad (r i) /\ bad (r k))) /\
    changes_only m m' (vcells y)).
Proof.
  intros m A t x y a f; intros. eapply wp_conseq; [apply hemv_ok; eauto|]. intros [] m' [K1 K2]. split; auto.
  eexists; split; [exact K1|]. cbv beta. split; [spoils|].
  intros i k Hi Hk Ht Hb. destruct (herm_bad t a i k Ht Hb). split; [apply (@big_term k); [lia|spoil]|apply (@big_term i); [lia|spoil]].
Qed.
Lemma hemv_upd_bad : forall (m : mem O) A t x y z a f g,
  ext0 A = ext1 A -> vext x = ext1 A -> vext y = ext0 A -> vext z = ext0 A ->
  mat_holds_on m A (in_tri t) a -> vec_holds m x f -> vec_holds m y g -> vwritable z -> allocated m (vcells z) ->
  disjoint (mcells_on A (in_tri t)) (vcells z) -> disjoint (vcells x) (vcells z) -> disjoint_or_aligned_v y z ->
  succeeds (hermitian_matrix_vector_product_upd A t x y z) m (fun _ m' =>
    (exists r, vec_holds m' z r /\
     (forall i, i < vext z -> bad (g i) -> bad (r i)) /\
     (forall i k, i < vext z -> k < ext1 A -> bad (f k) -> bad (r i)) /\
     (forall i k, i < vext z -> k < ext1 A -> in_tri t i k -> bad (a i k) -> bad (r i) /\ bad (r k))) /\
    changes_only m m' (vcells z)).
Proof.
  intros m A t x y z a f g; intros. eapply wp_conseq; [apply hemv_upd_ok with (g := g); eauto|]. intros [] m' [K1 K2]. split; auto.
  eexists; split; [exact K1|]. cbv beta. split; [spoils|split; [spoils|]].
  intros i k Hi Hk Ht Hb. destruct (herm_bad t a i k Ht Hb). split; [apply (@sum_term k); [lia|spoil]|apply (@sum_term i); [lia|spoil]].
Qed.
Lemma trmv_bad : forall (m : mem O) A t d x y a f,
  ext0 A = ext1 A -> vext x = ext1 A -> vext y = ext0 A ->
  mat_holds_on m A (stored t d) a -> vec_holds m x f -> vwritable y -> allocated m (vcells y) ->
  disjoint (mcells_on A (stored t d)) (vcells y) -> disjoint (vcells x) (vcells y) ->
  succeeds (triangular_matrix_vector_product A t d x y) m (fun _ m' =>
    (exists r, vec_holds m' y r /\
     (forall i k, i < vext y -> k < ext1 A -> in_tri t i k -> bad (f k) -> bad (r i)) /\
     (forall i k, i < vext y -> k < ext1 A -> stored t d i k -> bad (a i k) -> bad (r i))) /\
    changes_only m m' (vcells y)).
Proof.
  intros m A t d x y a f; intros. eapply wp_conseq; [apply trmv_ok; eauto|]. intros [] m' [K1 K2]. split; auto.
  eexists; split; [exact K1|]. cbv beta. split; [intros i k Hi Hk Ht Hb|intros i k Hi Hk [S1 S2] Hb]; apply (@tri_row_term k); auto. right; split; auto; split; auto.
Qed.
Lemma trmv_upd_bad : forall (m : mem O) A t d x y z a f g,
  ext0 A = ext1 A -> vext x = ext1 A -> vext y = ext0 A -> vext z = ext0 A ->
  mat_holds_on m A (stored t d) a -> vec_holds m x f -> vec_holds m y g -> vwritable z -> allocated m (vcells z) ->
  disjoint (mcells_on A (stored t d)) (vcells z) -> disjoint (vcells x) (vcells z) -> disjoint_or_aligned_v y z ->
  succeeds (triangular_matrix_vector_product_upd A t d x y z) m (fun _ m' =>
    (exists r, vec_holds m' z r /\
     (forall i, i < vext z -> bad (g i) -> bad (r i)) /\
     (forall i k, i < vext z -> k < ext1 A -> in_tri t i k -> bad (f k) -> bad (r i)) /\
     (forall i k, i < vext z -> k < ext1 A -> stored t d i k -> bad (a i k) -> bad (r i))) /\
    changes_only m m' (vcells z)).
Proof.
  intros m A t d x y z a f g; intros. eapply wp_conseq; [apply trmv_upd_ok with (g := g); eauto|]. intros [] m' [K1 K2]. split; auto.
  eexists; split; [exact K1|]. cbv beta. split; [intros; apply tri_row_init; auto|]. split; [intros i k Hi Hk Ht Hb|intros i k Hi Hk [S1 S2] Hb]; apply (@tri_row_term k); auto. right; split; auto; split; auto.
Qed.
Lemma trmv_inplace_bad : forall (m : mem O) A t d y a f,
  ext0 A = ext1 A -> vext y = ext0 A ->
  mat_holds_on m A (stored t d) a -> vec_holds m y f -> vwritable y ->
  disjoint (mcells_on A (stored t d)) (vcells y) ->
  succeeds (triangular_matrix_vector_product_inplace A t d y) m (fun _ m' =>
    (exists r, vec_holds m' y r /\
     (forall i k, i < vext y -> k < ext1 A -> in_tri t i k -> bad (f k) -> bad (r i)) /\
     (forall i k, i < vext y -> k < ext1 A -> stored t d i k -> bad (a i k) -> bad (r i))) /\
    changes_only m m' (vcells y)).
Proof.
  intros m A t d y a f; intros. eapply wp_conseq; [apply trmv_inplace_exact; eauto|]. intros [] m' [K1 K2]. split; auto.
  eexists; split; [exact K1|]. cbv beta. split; [intros i k Hi Hk Ht Hb|intros i k Hi Hk [S1 S2] Hb]; apply (@row_term k); auto; try lia; try (intros; spoil).
  right; split; auto; split; auto.
Qed.
Lemma ger_bad : forall (m : mem O) x y A a f g,
  vext x = ext0 A -> vext y = ext1 A ->
  mat_holds m A a -> vec_holds m x f -> vec_holds m y g -> mwritable A ->
  disjoint (vcells x) (mcells A) -> disjoint (vcells y) (mcells A) ->
  succeeds (matrix_rank_1_update x y A) m (fun _ m' =>
    (exists r, mat_holds m' A r /\
     forall i j, i < ext0 A -> j < ext1 A -> bad (a i j) \/ bad (f i) \/ bad (g j) -> bad (r i j)) /\
    changes_only m m' (mcells A)).
Proof.
  intros m x y A a f g; intros. eapply wp_conseq; [apply ger_ok; eauto|]. intros [] m' [K1 K2]. split; auto.
  eexists; split; [exact K1|]. cbv beta. spoils.
Qed.
Lemma gerc_bad : forall (m : mem O) fix_nc nc x y A a f g,
  (forall v : O, conj (conj v) = v) -> (nc = true -> forall v : O, conj v = v) ->
  vext x = ext0 A -> vext y = ext1 A ->
  mat_holds m A a -> vec_holds m x f -> vec_holds m y g -> mwritable A ->
  disjoint (vcells x) (mcells A) -> disjoint (vcells y) (mcells A) ->
  succeeds (matrix_rank_1_update_c fix_nc nc x y A) m (fun _ m' =>
    (exists r, mat_holds m' A r /\
     forall i j, i < ext0 A -> j < ext1 A -> bad (a i j) \/ bad (f i) \/ bad (g j) -> bad (r i j)) /\
    changes_only m m' (mcells A)).
Proof.
  intros m fix_nc nc x y A a f g; intros. eapply wp_conseq; [apply gerc_ok; eauto|]. intros [] m' [K1 K2]. split; auto.
  eexists; split; [exact K1|]. cbv beta. spoils.
Qed.
Lemma syr_bad : forall (m : mem O) x A t a f,
  ext0 A = ext1 A -> vext x = ext0 A ->
  mat_holds_on m A (in_tri t) a -> vec_holds m x f -> mwritable_on A (in_tri t) ->
  disjoint (vcells x) (mcells_on A (in_tri t)) ->
  succeeds (symmetric_matrix_rank_1_update x A t) m (fun _ m' =>
    (exists r, mat_holds_on m' A (in_tri t) r /\
     forall i j, i < ext0 A -> j < ext1 A -> in_tri t i j -> bad (a i j) \/ bad (f i) \/ bad (f j) -> bad (r i j)) /\
    changes_only m m' (mcells_on A (in_tri t))).
Proof.
  intros m x A t a f; intros. eapply wp_conseq; [apply syr_ok; eauto|]. intros [] m' [K1 K2]. split; auto.
  eexists; split; [exact K1|]. cbv beta. spoils.
Qed.
Lemma syr_alpha_bad : forall (m : mem O) alpha x A t a f,
  ext0 A = ext1 A -> vext x = ext0 A ->
  mat_holds_on m A (in_tri t) a -> vec_holds m x f -> mwritable_on A (in_tri t) ->
  disjoint (vcells x) (mcells_on A (in_tri t)) ->
  succeeds (symmetric_matrix_rank_1_update_alpha alpha x A t) m (fun _ m' =>
    (exists r, mat_holds_on m' A (in_tri t) r /\
     forall i j, i < ext0 A -> j < ext1 A -> in_tri t i j -> bad alpha \/ bad (a i j) \/ bad (f i) \/ bad (f j) -> bad (r i j)) /\
    changes_only m m' (mcells_on A (in_tri t))).
Proof.
  intros m alpha x A t a f; intros. eapply wp_conseq; [apply syr_alpha_ok; eauto|]. intros [] m' [K1 K2]. split; auto.
  eexists; split; [exact K1|]. cbv beta. spoils.
Qed.
Lemma syr2_bad : forall (m : mem O) x y A t a f g,
  ext0 A = ext1 A -> vext x = ext0 A -> vext y = ext0 A ->
  mat_holds_on m A (in_tri t) a -> vec_holds m x f -> vec_holds m y g -> mwritable_on A (in_tri t) ->
  disjoint (vcells x) (mcells_on A (in_tri t)) -> disjoint (vcells y) (mcells_on A (in_tri t)) ->
  succeeds (symmetric_matrix_rank_2_update x y A t) m (fun _ m' =>
    (exists r, mat_holds_on m' A (in_tri t) r /\
     forall i j, i < ext0 A -> j < ext1 A -> in_tri t i j ->
       bad (a i j) \/ bad (f i) \/ bad (f j) \/ bad (g i) \/ bad (g j) -> bad (r i j)) /\
    changes_only m m' (mcells_on A (in_tri t))).
Proof.
  intros m x y A t a f g; intros. eapply wp_conseq; [apply syr2_ok; eauto|]. intros [] m' [K1 K2]. split; auto.
  eexists; split; [exact K1|]. cbv beta. spoils.
Qed.
Lemma her_bad : forall (m : mem O) x A t a f,
  ext0 A = ext1 A -> vext x = ext0 A ->
  mat_holds_on m A (in_tri t) a -> vec_holds m x f -> mwritable_on A (in_tri t) ->
  disjoint (vcells x) (mcells_on A (in_tri t)) ->
  succeeds (hermitian_matrix_rank_1_update x A t) m (fun _ m' =>
    (exists r, mat_holds_on m' A (in_tri t) r /\
     forall i j, i < ext0 A -> j < ext1 A -> in_tri t i j -> bad (a i j) \/ bad (f i) \/ bad (f j) -> bad (r i j)) /\
    changes_only m m' (mcells_on A (in_tri t))).
Proof.
  intros m x A t a f; intros. eapply wp_conseq; [apply her_ok; eauto|]. intros [] m' [K1 K2]. split; auto.
  eexists; split; [exact K1|]. cbv beta. spoils.
Qed.
Lemma her_alpha_bad : forall (m : mem O) alpha x A t a f,
  ext0 A = ext1 A -> vext x = ext0 A ->
  mat_holds_on m A (in_tri t) a -> vec_holds m x f -> mwritable_on A (in_tri t) ->
  disjoint (vcells x) (mcells_on A (in_tri t)) ->
  succeeds (hermitian_matrix_rank_1_update_alpha alpha x A t) m (fun _ m' =>
    (exists r, mat_holds_on m' A (in_tri t) r /\
     forall i j, i < ext0 A -> j < ext1 A -> in_tri t i j -> bad alpha \/ bad (a i j) \/ bad (f i) \/ bad (f j) -> bad (r i j)) /\
    changes_only m m' (mcells_on A (in_tri t))).
Proof.
  intros m alpha x A t a f; intros. eapply wp_conseq; [apply her_alpha_ok; eauto|]. intros [] m' [K1 K2]. split; auto.
  eexists; split; [exact K1|]. cbv beta. spoils.
Qed.
Lemma her2_bad : forall (m : mem O) x y A t a f g,
  ext0 A = ext1 A -> vext x = ext0 A -> vext y = ext0 A ->
  mat_holds_on m A (in_tri t) a -> vec_holds m x f -> vec_holds m y g -> mwritable_on A (in_tri t) ->
  disjoint (vcells x) (mcells_on A (in_tri t)) -> disjoint (vcells y) (mcells_on A (in_tri t)) ->
  succeeds (hermitian_matrix_rank_2_update x y A t) m (fun _ m' =>
    (exists r, mat_holds_on m' A (in_tri t) r /\
     forall i j, i < ext0 A -> j < ext1 A -> in_tri t i j ->
       bad (a i j) \/ bad (f i) \/ bad (f j) \/ bad (g i) \/ bad (g j) -> bad (r i j)) /\
    changes_only m m' (mcells_on A (in_tri t))).
Proof.
  intros m x y A t a f g; intros. eapply wp_conseq; [apply her2_ok; eauto|]. intros [] m' [K1 K2]. split; auto.
  eexists; split; [exact K1|]. cbv beta. spoils.
Qed.
Lemma gemm_bad : forall (m : mem O) A B C a b,
  ext0 C = ext0 A -> ext1 A = ext0 B -> ext1 C = ext1 B ->
  mat_holds m A a -> mat_holds m B b -> mwritable C -> allocated m (mcells C) ->
  disjoint (mcells A) (mcells C) -> disjoint (mcells B) (mcells C) ->
  succeeds (matrix_product A B C) m (fun _ m' =>
    (exists r, mat_holds m' C r /\
     forall i j k, i < ext0 C -> j < ext1 C -> k < ext1 A -> bad (a i k) \/ bad (b k j) -> bad (r i j)) /\
    changes_only m m' (mcells C)).
Proof.
  intros m A B C a b; intros. eapply wp_conseq; [apply gemm_ok; eauto|]. intros [] m' [K1 K2]. split; auto.
  eexists; split; [exact K1|]. cbv beta. spoils.
Qed.
Lemma gemm_upd_bad : forall (m : mem O) A B E C a b e,
  ext0 C = ext0 A -> ext1 A = ext0 B -> ext1 C = ext1 B -> ext0 E = ext0 C -> ext1 E = ext1 C ->
  mat_holds m A a -> mat_holds m B b -> mat_holds m E e -> mwritable C -> allocated m (mcells C) ->
  disjoint (mcells A) (mcells C) -> disjoint (mcells B) (mcells C) -> disjoint_or_aligned_m E C ->
  succeeds (matrix_product_upd A B E C) m (fun _ m' =>
    (exists r, mat_holds m' C r /\
     (forall i j, i < ext0 C -> j < ext1 C -> bad (e i j) -> bad (r i j)) /\
     (forall i j k, i < ext0 C -> j < ext1 C -> k < ext1 A -> bad (a i k) \/ bad (b k j) -> bad (r i j))) /\
    changes_only m m' (mcells C)).
Proof.
  intros m A B E C a b e; intros. eapply wp_conseq; [apply gemm_upd_ok with (e := e); eauto|]. intros [] m' [K1 K2]. split; auto.
  eexists; split; [exact K1|]. cbv beta. split; spoils.
Qed.
Lemma symm_left_bad : forall (m : mem O) A t B C a b,
  ext0 A = ext1 A -> ext0 C = ext0 A -> ext1 A = ext0 B -> ext1 C = ext1 B ->
  mat_holds_on m A (in_tri t) a -> mat_holds m B b -> mwritable C -> allocated m (mcells C) ->
  disjoint (mcells_on A (in_tri t)) (mcells C) -> disjoint (mcells B) (mcells C) ->
  succeeds (symmetric_matrix_product_left A t B C) m (fun _ m' =>
    (exists r, mat_holds m' C r /\
     (forall i j k, i < ext0 C -> j < ext1 C -> k < ext1 A -> bad (b k j) -> bad (r i j)) /\
     (forall i j k, i < ext0 C -> j < ext1 C -> k < ext1 A -> in_tri t i k -> bad (a i k) -> bad (r i j) /\ bad (r k j))) /\
    changes_only m m' (mcells C)).
Proof.
  intros m A t B C a b; intros. eapply wp_conseq; [apply symm_left_ok; eauto|]. intros [] m' [K1 K2]. split; auto.
  eexists; split; [exact K1|]. cbv beta. split; [intros i j k Hi Hj Hk Hb; apply (@big_term k); [lia|spoil]|].
  intros i j k Hi Hj Hk Ht Hb. destruct (sym_bad t a i k Ht Hb). split; [apply (@big_term k); [lia|spoil]|apply (@big_term i); [lia|spoil]].
Qed.
Lemma symm_right_bad : forall (m : mem O) B A t C a b,
  ext0 A = ext1 A -> ext0 C = ext0 B -> ext1 B = ext0 A -> ext1 C = ext1 A ->
  mat_holds_on m A (in_tri t) a -> mat_holds m B b -> mwritable C -> allocated m (mcells C) ->
  disjoint (mcells_on A (in_tri t)) (mcells C) -> disjoint (mcells B) (mcells C) ->
  succeeds (symmetric_matrix_product_right B A t C) m (fun _ m' =>
    (exists r, mat_holds m' C r /\
     (forall i j k, i < ext0 C -> j < ext1 C -> k < ext1 A -> bad (b i k) -> bad (r i j)) /\
     (forall i j k, i < ext0 C -> j < ext1 C -> k < ext1 A -> in_tri t k j -> bad (a k j) -> bad (r i j) /\ bad (r i k))) /\
    changes_only m m' (mcells C)).
Proof.
  intros m B A t C a b; intros. eapply wp_conseq; [apply symm_right_ok; eauto|]. intros [] m' [K1 K2]. split; auto.
  eexists; split; [exact K1|]. cbv beta. split; [intros i j k Hi Hj Hk Hb; apply (@big_term k); [lia|spoil]|].
  intros i j k Hi Hj Hk Ht Hb. destruct (sym_bad t a k j Ht Hb). split; [apply (@big_term k); [lia|spoil]|apply (@big_term j); [lia|spoil]].
Qed.
Lemma hemm_left_bad : forall (m : mem O) A t B C a b,
  ext0 A = ext1 A -> ext0 C = ext0 A -> ext1 A = ext0 B -> ext1 C = ext1 B ->
  mat_holds_on m A (in_tri t) a -> mat_holds m B b -> mwritable C -> allocated m (mcells C) ->
  disjoint (mcells_on A (in_tri t)) (mcells C) -> disjoint (mcells B) (mcells C) ->
  succeeds (hermitian_matrix_product_left A t B C) m (fun _ m' =>
    (exists r, mat_holds m' C r /\
     (forall i j k, i < ext0 C -> j < ext1 C -> k < ext1 A -> bad (b k j) -> bad (r i j)) /\
     (forall i j k, i < ext0 C -> j < ext1 C -> k < ext1 A -> in_tri t i k -> bad (a i k) -> bad (r i j) /\ bad (r k j))) /\
    changes_only m m' (mcells C)).
Proof.
  intros m A t B C a b; intros. eapply wp_conseq; [apply hemm_left_ok; eauto|]. intros [] m' [K1 K2]. split; auto.
  eexists; split; [exact K1|]. cbv beta. split; [intros i j k Hi Hj Hk Hb; apply (@big_term k); [lia|spoil]|].
  intros i j k Hi Hj Hk Ht Hb. destruct (herm_bad t a i k Ht Hb). split; [apply (@big_term k); [lia|spoil]|apply (@big_term i); [lia|spoil]].
Qed.
Lemma hemm_right_bad : forall (m : mem O) B A t C a b,
  ext0 A = ext1 A -> ext0 C = ext0 B -> ext1 B = ext0 A -> ext1 C = ext1 A ->
  mat_holds_on m A (in_tri t) a -> mat_holds m B b -> mwritable C -> allocated m (mcells C) ->
  disjoint (mcells_on A (in_tri t)) (mcells C) -> disjoint (mcells B) (mcells C) ->
  succeeds (hermitian_matrix_product_right B A t C) m (fun _ m' =>
    (exists r, mat_holds m' C r /\
     (forall i j k, i < ext0 C -> j < ext1 C -> k < ext1 A -> bad (b i k) -> bad (r i j)) /\
     (forall i j k, i < ext0 C -> j < ext1 C -> k < ext1 A -> in_tri t k j -> bad (a k j) -> bad (r i j) /\ bad (r i k))) /\
    changes_only m m' (mcells C)).
Proof.
  intros m B A t C a b; intros. eapply wp_conseq; [apply hemm_right_ok; eauto|]. intros [] m' [K1 K2]. split; auto.
  eexists; split; [exact K1|]. cbv beta. split; [intros i j k Hi Hj Hk Hb; apply (@big_term k); [lia|spoil]|].
  intros i j k Hi Hj Hk Ht Hb. destruct (herm_raw_bad t a k j Ht Hb). split; [apply (@big_term k); [lia|spoil]|apply (@big_term j); [lia|spoil]].
Qed.
Lemma trmm_left_bad : forall ty (m : mem O) A t d B C a b,
  fits ty (ext0 C) ->
  ext0 A = ext1 A -> ext0 C = ext0 A -> ext1 A = ext0 B -> ext1 C = ext1 B ->
  mat_holds_on m A (stored t d) a -> mat_holds m B b -> mwritable C -> allocated m (mcells C) ->
  disjoint (mcells_on A (stored t d)) (mcells C) -> disjoint (mcells B) (mcells C) ->
  succeeds (triangular_matrix_product_left ty A t d B C) m (fun _ m' =>
    (exists r, mat_holds m' C r /\
     (forall i j k, i < ext0 C -> j < ext1 C -> k < ext1 A -> in_tri t i k -> bad (b k j) -> bad (r i j)) /\
     (forall i j k, i < ext0 C -> j < ext1 C -> k < ext1 A -> stored t d i k -> bad (a i k) -> bad (r i j))) /\
    changes_only m m' (mcells C)).
Proof.
  intros ty m A t d B C a b; intros. eapply wp_conseq; [apply trmm_left_raw; eauto|]. intros [] m' [K1 K2]. split; auto.
  eexists; split; [exact K1|]. cbv beta. split; [intros i j k Hi Hj Hk Ht Hb|intros i j k Hi Hj Hk [S1 S2] Hb]; apply (@tri_elem_term k); auto; try lia; try (intros; spoil).
  - intros ->; auto.
  - intros -> ->. exfalso; apply S2; auto.
Qed.
Lemma trmm_right_bad : forall ty (m : mem O) B A t d C a b,
  fits ty (ext1 C) ->
  ext0 A = ext1 A -> ext0 C = ext0 B -> ext1 B = ext0 A -> ext1 C = ext1 A ->
  mat_holds_on m A (stored t d) a -> mat_holds m B b -> mwritable C -> allocated m (mcells C) ->
  disjoint (mcells_on A (stored t d)) (mcells C) -> disjoint (mcells B) (mcells C) ->
  succeeds (triangular_matrix_product_right ty B A t d C) m (fun _ m' =>
    (exists r, mat_holds m' C r /\
     (forall i j k, i < ext0 C -> j < ext1 C -> k < ext1 A -> in_tri t k j -> bad (b i k) -> bad (r i j)) /\
     (forall i j k, i < ext0 C -> j < ext1 C -> k < ext1 A -> stored t d k j -> bad (a k j) -> bad (r i j))) /\
    changes_only m m' (mcells C)).
Proof.
  intros ty m B A t d C a b; intros. eapply wp_conseq; [apply trmm_right_raw; eauto|]. intros [] m' [K1 K2]. split; auto.
  eexists; split; [exact K1|]. cbv beta. assert (FL : negb (is_lower t) = is_lower (flip t)) by (destruct t; auto).
  assert (IT : forall k j, in_tri (flip t) j k <-> in_tri t k j) by (intros; destruct t; simpl; tauto).
  split; [intros i j k Hi Hj Hk Ht Hb|intros i j k Hi Hj Hk [S1 S2] Hb]; rewrite FL; apply (@tri_elem_term k); try apply IT; auto; try lia; try (intros; spoil).
  - intros ->; auto.
  - intros -> ->. exfalso; apply S2; auto.
Qed.
Lemma trmm_left_inplace_bad : forall (m : mem O) A t d C a c,
  ext0 A = ext1 A -> ext0 C = ext0 A ->
  mat_holds_on m A (stored t d) a -> mat_holds m C c -> mwritable C ->
  disjoint (mcells_on A (stored t d)) (mcells C) ->
  succeeds (triangular_matrix_left_product A t d C) m (fun _ m' =>
    (exists r, mat_holds m' C r /\
     (forall i j k, i < ext0 C -> j < ext1 C -> k < ext1 A -> in_tri t i k -> bad (c k j) -> bad (r i j)) /\
     (forall i j k, i < ext0 C -> j < ext1 C -> k < ext1 A -> stored t d i k -> bad (a i k) -> bad (r i j))) /\
    changes_only m m' (mcells C)).
Proof.
  intros m A t d C a c; intros. eapply wp_conseq; [apply trmm_left_inplace_exact; eauto|]. intros [] m' [K1 K2]. split; auto.
  eexists; split; [exact K1|]. cbv beta. split; [intros i j k Hi Hj Hk Ht Hb|intros i j k Hi Hj Hk [S1 S2] Hb]; apply (@row_term k t d (ext1 A) i a (fun k => c k j)); auto; try lia; try (intros; spoil).
  right; split; auto; split; auto.
Qed.
Lemma trmm_right_inplace_bad : forall (m : mem O) A t d C a c,
  ext0 A = ext1 A -> ext1 C = ext0 A ->
  mat_holds_on m A (stored t d) a -> mat_holds m C c -> mwritable C ->
  disjoint (mcells_on A (stored t d)) (mcells C) ->
  succeeds (triangular_matrix_right_product A t d C) m (fun _ m' =>
    (exists r, mat_holds m' C r /\
     (forall i j k, i < ext0 C -> j < ext1 C -> k < ext1 A -> in_tri t k j -> bad (c i k) -> bad (r i j)) /\
     (forall i j k, i < ext0 C -> j < ext1 C -> k < ext1 A -> stored t d k j -> bad (a k j) -> bad (r i j))) /\
    changes_only m m' (mcells C)).
Proof.
  intros m A t d C a c; intros. eapply wp_conseq; [apply trmm_right_inplace_exact; eauto|]. intros [] m' [K1 K2]. split; auto.
  eexists; split; [exact K1|]. cbv beta. split; [intros i j k Hi Hj Hk Ht Hb|intros i j k Hi Hj Hk [S1 S2] Hb]; apply (@col_term k t d (ext1 A) j a (c i)); auto; try lia; try (intros; spoil).
  right; split; auto; split; auto.
Qed.
Lemma syrk_bad : forall (m : mem O) A C t a c,
  ext0 C = ext1 C -> ext0 A = ext0 C ->
  mat_holds m A a -> mat_holds_on m C (in_tri t) c -> mwritable_on C (in_tri t) ->
  disjoint (mcells A) (mcells_on C (in_tri t)) ->
  succeeds (symmetric_matrix_rank_k_update A C t) m (fun _ m' =>
    (exists r, mat_holds_on m' C (in_tri t) r /\
     (forall i j, i < ext0 C -> j < ext1 C -> in_tri t i j -> bad (c i j) -> bad (r i j)) /\
     (forall i j k, i < ext0 C -> j < ext1 C -> in_tri t i j -> k < ext1 A -> bad (a i k) \/ bad (a j k) -> bad (r i j))) /\
    changes_only m m' (mcells_on C (in_tri t))).
Proof.
  intros m A C t a c; intros. eapply wp_conseq; [apply syrk_ok; eauto|]. intros [] m' [K1 K2]. split; auto.
  eexists; split; [exact K1|]. cbv beta. split; spoils.
Qed.
Lemma herk_bad : forall (m : mem O) A C t a c,
  ext0 C = ext1 C -> ext0 A = ext0 C ->
  mat_holds m A a -> mat_holds_on m C (in_tri t) c -> mwritable_on C (in_tri t) ->
  disjoint (mcells A) (mcells_on C (in_tri t)) ->
  succeeds (hermitian_matrix_rank_k_update A C t) m (fun _ m' =>
    (exists r, mat_holds_on m' C (in_tri t) r /\
     (forall i j, i < ext0 C -> j < ext1 C -> in_tri t i j -> bad (c i j) -> bad (r i j)) /\
     (forall i j k, i < ext0 C -> j < ext1 C -> in_tri t i j -> k < ext1 A -> bad (a i k) \/ bad (a j k) -> bad (r i j))) /\
    changes_only m m' (mcells_on C (in_tri t))).
Proof.
  intros m A C t a c; intros. eapply wp_conseq; [apply herk_ok; eauto|]. intros [] m' [K1 K2]. split; auto.
  eexists; split; [exact K1|]. cbv beta. split; spoils.
Qed.
Lemma syr2k_bad : forall (m : mem O) A B C t a b c,
  ext0 C = ext1 C -> ext0 A = ext0 C -> ext0 B = ext0 C -> ext1 B = ext1 A ->
  mat_holds m A a -> mat_holds m B b -> mat_holds_on m C (in_tri t) c -> mwritable_on C (in_tri t) ->
  disjoint (mcells A) (mcells_on C (in_tri t)) -> disjoint (mcells B) (mcells_on C (in_tri t)) ->
  succeeds (symmetric_matrix_rank_2k_update A B C t) m (fun _ m' =>
    (exists r, mat_holds_on m' C (in_tri t) r /\
     (forall i j, i < ext0 C -> j < ext1 C -> in_tri t i j -> bad (c i j) -> bad (r i j)) /\
     (forall i j k, i < ext0 C -> j < ext1 C -> in_tri t i j -> k < ext1 A ->
       bad (a i k) \/ bad (a j k) \/ bad (b i k) \/ bad (b j k) -> bad (r i j))) /\
    changes_only m m' (mcells_on C (in_tri t))).
Proof.
  intros m A B C t a b c; intros. eapply wp_conseq; [apply syr2k_ok; eauto|]. intros [] m' [K1 K2]. split; auto.
  eexists; split; [exact K1|]. cbv beta. split; spoils.
Qed.
Lemma her2k_bad : forall (m : mem O) A B C t a b c,
  ext0 C = ext1 C -> ext0 A = ext0 C -> ext0 B = ext0 C -> ext1 B = ext1 A ->
  mat_holds m A a -> mat_holds m B b -> mat_holds_on m C (in_tri t) c -> mwritable_on C (in_tri t) ->
  disjoint (mcells A) (mcells_on C (in_tri t)) -> disjoint (mcells B) (mcells_on C (in_tri t)) ->
  succeeds (hermitian_matrix_rank_2k_update A B C t) m (fun _ m' =>
    (exists r, mat_holds_on m' C (in_tri t) r /\
     (forall i j, i < ext0 C -> j < ext1 C -> in_tri t i j -> bad (c i j) -> bad (r i j)) /\
     (forall i j k, i < ext0 C -> j < ext1 C -> in_tri t i j -> k < ext1 A ->
       bad (a i k) \/ bad (a j k) \/ bad (b i k) \/ bad (b j k) -> bad (r i j))) /\
    changes_only m m' (mcells_on C (in_tri t))).
Proof.
  intros m A B C t a b c; intros. eapply wp_conseq; [apply her2k_ok; eauto|]. intros [] m' [K1 K2]. split; auto.
  eexists; split; [exact K1|]. cbv beta. split; spoils.
Qed.
Lemma trsv_bad : forall ty (m : mem O) A t d B X a b,
  fits ty (ext0 A) -> (ext0 A = 0 -> t = Upper -> ty <> U32) ->
  ext0 A = ext1 A -> vext B = ext0 A -> vext X = ext0 A ->
  mat_holds_on m A (stored t d) a -> vec_holds m B b -> vwritable X -> allocated m (vcells X) ->
  disjoint (mcells_on A (stored t d)) (vcells X) -> disjoint_or_aligned_v B X ->
  succeeds (triangular_matrix_vector_solve ty A t d B X) m (fun _ m' =>
    (exists r, vec_holds m' X r /\
     (forall i k, i < ext0 A -> k < ext0 A -> in_tri t i k -> bad (b k) -> bad (r i)) /\
     (forall i k l, i < ext0 A -> k < ext0 A -> l < ext0 A -> in_tri t i k -> stored t d k l -> bad (a k l) -> bad (r i))) /\
    changes_only m m' (vcells X)).
Proof.
  intros ty m A t d B X a b; intros. eapply wp_conseq; [apply trsv_subst with (a := a) (b := b); eauto|].
  intros [] m' [(f & K1 & K2) K3]. split; auto. exists f. split; auto.
  destruct (@subst_bad t d (ext0 A) a b f K2). auto.
Qed.
Lemma trsm_left_bad : forall ty (m : mem O) A t d B X a b,
  fits ty (ext0 A) -> (ext0 A = 0 -> t = Upper -> ty <> U32) ->
  ext0 A = ext1 A -> ext0 B = ext0 A -> ext0 X = ext0 A -> ext1 X = ext1 B ->
  mat_holds_on m A (stored t d) a -> mat_holds m B b -> mwritable X -> allocated m (mcells X) ->
  disjoint (mcells_on A (stored t d)) (mcells X) -> disjoint_or_aligned_m B X ->
  succeeds (triangular_matrix_matrix_left_solve ty A t d B X) m (fun _ m' =>
    (exists r, mat_holds m' X r /\
     (forall i j k, i < ext0 X -> j < ext1 X -> k < ext0 A -> in_tri t i k -> bad (b k j) -> bad (r i j)) /\
     (forall i j k l, i < ext0 X -> j < ext1 X -> k < ext0 A -> l < ext0 A -> in_tri t i k -> stored t d k l -> bad (a k l) -> bad (r i j))) /\
    changes_only m m' (mcells X)).
Proof.
  intros ty m A t d B X a b; intros. eapply wp_conseq; [apply trsm_left_subst with (a := a) (b := b); eauto|].
  intros [] m' [(f & K1 & K2) K3]. split; auto. exists f. split; auto.
  split.
  - intros i j k Hi Hj Hk Ht Hb. destruct (@subst_bad t d (ext0 A) a (fun k => b k j) (fun k => f k j)) as [B1 B2]; [intros; apply K2; lia|]. eapply B1; eauto; lia.
  - intros i j k l Hi Hj Hk Hl Ht Hs Hb. destruct (@subst_bad t d (ext0 A) a (fun k => b k j) (fun k => f k j)) as [B1 B2]; [intros; apply K2; lia|].
    apply (B2 i k l); auto; lia.
Qed.
Lemma trsm_right_bad : forall ty (m : mem O) A t d B X a b,
  (t = Lower -> fits (make_signed ty) (ext0 A)) ->
  ext0 A = ext1 A -> ext1 B = ext0 A -> ext1 X = ext0 A -> ext0 X = ext0 B ->
  mat_holds_on m A (stored t d) a -> mat_holds m B b -> mwritable X -> allocated m (mcells X) ->
  disjoint (mcells_on A (stored t d)) (mcells X) -> disjoint_or_aligned_m B X ->
  succeeds (triangular_matrix_matrix_right_solve ty A t d B X) m (fun _ m' =>
    (exists r, mat_holds m' X r /\
     (forall i j k, i < ext0 X -> j < ext1 X -> k < ext0 A -> in_tri t k j -> bad (b i k) -> bad (r i j)) /\
     (forall i j k l, i < ext0 X -> j < ext1 X -> k < ext0 A -> l < ext0 A -> in_tri t k j -> stored t d l k -> bad (a l k) -> bad (r i j))) /\
    changes_only m m' (mcells X)).
Proof.
  intros ty m A t d B X a b; intros. eapply wp_conseq; [apply trsm_right_subst with (a := a) (b := b); eauto|].
  intros [] m' [(f & K1 & K2) K3]. split; auto. exists f. split; auto.
  split.
  - intros i j k Hi Hj Hk Ht Hb. destruct (@subst_bad_r t d (ext0 A) a (b i) (f i)) as [B1 B2]; [intros; apply K2; lia|]. eapply B1; eauto; lia.
  - intros i j k l Hi Hj Hk Hl Ht Hs Hb. destruct (@subst_bad_r t d (ext0 A) a (b i) (f i)) as [B1 B2]; [intros; apply K2; lia|].
    apply (B2 j k l); auto; lia.
Qed.
End Bad.

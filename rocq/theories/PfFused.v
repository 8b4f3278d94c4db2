(** Operations on integers in contracted arithmetic. *)
From Coq Require Import List Arith ZArith Reals Lia Bool.
From Flocq Require Import Core.Core IEEE754.BinarySingleNaN.
From Verif Require Import Mem Scalar View Spec SpecI SpecSub SpecInp SpecExact SpecFused Ieee Fma Idx Wp Loops Sums Blas1 Blas2 Blas3
  PfBlas1 PfBlas2 PfTrmv PfTrsv PfRank PfBlas3 PfTrsm PfSub PfInplace PfMono PfExactI PfFusedI.
Import ListNotations.
Local Open Scope nat_scope.

Ltac leaf := first [assumption
  | match goal with K : forall i, _ -> surely _ _ |- surely _ _ => apply K; lia end
  | match goal with K : forall i j, _ -> _ -> surely _ _ |- surely _ _ => apply K; lia end
  | match goal with K : forall i j, _ -> _ -> _ -> surely _ _ |- surely _ _ => apply K; solve [lia | assumption] end
  | match goal with |- surely (herm_of _ _ _ _) _ => rewrite herm_in by assumption; leaf end
  | match goal with K : _ < ext0 ?A, S : symmetric_z _ |- surely (sym_of _ _ _ _) _ => apply sym_int with (n := ext0 A); auto; try lia; intros; leaf end
  | match goal with S : symmetric_z _, E : ext0 ?A = ext1 ?A |- surely (sym_of _ _ _ _) _ => apply sym_int with (n := ext0 A); auto; try lia; intros; leaf end
  | match goal with S : symmetric_z _, E : ext0 ?A = ext1 ?A |- surely (herm_of _ _ _ _) _ => apply herm_int with (n := ext0 A); auto; try lia; intros; leaf end
  | match goal with S : symmetric_z _, E : ext0 ?A = ext1 ?A |- surely (herm_raw _ _ _ _) _ => apply herm_raw_int with (n := ext0 A); auto; try lia; intros; leaf end].
Ltac xx := cbv beta; first [
    apply ex_big; intros; xx
  | apply ex_sum; [xx|intros; xx]
  | apply ex_mul; leaf
  | apply ex_add; xx
  | apply ex_in; leaf].
Ltac start := match goal with |- fits_in _ ?B -> surely ?r ?z => let K := fresh in intros K; cbv beta in K; refine (proj2 (_ : ex r z B) K); clear K end.
Ltac out := match goal with K : triangular_z ?t ?d ?p |- _ => destruct K as [TZ TU] end.

Section Tri.
Variables prec emax : Z.
Context (Hp : FLX.Prec_gt_0 prec) (He : Prec_lt_emax prec emax).
Notation fl := (poss prec emax).
Notation O := (fma_ops prec emax Hp He).
Lemma nd_seq : forall i lo n, i < lo \/ lo + n <= i -> NoDup (i :: seq lo n).
Proof. intros. constructor; [|apply seq_NoDup]. rewrite in_seq. lia. Qed.
Lemma tri_term_ex : forall t d n (a : nat -> nat -> O) (f : nat -> O) p q i k, triangular_z t d p -> i < n -> k < n -> in_tri t i k ->
  (forall i j, i < n -> j < n -> stored t d i j -> surely (a i j : fl) (p i j)) -> (forall j, j < n -> surely (f j : fl) (q j)) ->
  ex (tri_term d a f i k : fl) (p i k * q k) (Z.abs (p i k * q k)).
Proof.
  intros t d n a f p q i k [TZ TU] Hi Hk T Ha Hf. unfold tri_term. destruct (Nat.eqb_spec i k) as [->|NE].
  - destruct d; [apply ex_mul; auto; apply Ha; auto; split; auto; discriminate|]. rewrite TU, Z.mul_1_l by auto. apply ex_in; auto.
  - apply ex_mul; auto. apply Ha; auto. split; auto.
Qed.
Lemma tri_row_ex : forall t d n (a : nat -> nat -> O) (f : nat -> O) p q (s : O) z B i, triangular_z t d p -> i < n ->
  (forall i j, i < n -> j < n -> stored t d i j -> surely (a i j : fl) (p i j)) -> (forall j, j < n -> surely (f j : fl) (q j)) ->
  ex (s : fl) z B -> ex (tri_row s t d n a f i : fl) (z + zsum n (fun k => p i k * q k))%Z (B + zsum n (fun k => Z.abs (p i k * q k)))%Z.
Proof.
  intros t d n a f p q s z B i T Hi Ha Hf Hs. unfold tri_row. destruct t; (eapply ex_part; [exact Hs|apply seq_NoDup| | |]);
  try (intros k Hk; apply in_seq in Hk; lia);
  try (intros k Hk; apply in_seq in Hk; eapply tri_term_ex; eauto; simpl; lia);
  (intros k Hk Hn; rewrite in_seq in Hn; destruct T as [TZ TU]; rewrite TZ by (simpl; lia); split; reflexivity).
Qed.
(** terms e k for k in the triangle, last for the diagonal *)
Lemma tri_elem_ex : forall t d n i (e : nat -> O) (l : O) z, i < n ->
  (forall k, k < n -> stored t d i k -> ex (e k : fl) (z k) (Z.abs (z k))) -> (d = ImplicitUnit -> ex (l : fl) (z i) (Z.abs (z i))) ->
  (forall k, k < n -> ~ in_tri t i k -> z k = 0%Z) ->
  ex (tri_elem (is_lower t) d n i e l : fl) (zsum n z) (zsum n (fun k => Z.abs (z k))).
Proof.
  intros t d n i e l z Hi He' Hl Hz. unfold tri_elem. destruct d; cbv zeta; cbn [is_explicit].
  - replace (zsum n z) with (0 + zsum n z)%Z by lia. replace (zsum n (fun k => Z.abs (z k))) with (0 + zsum n (fun k => Z.abs (z k)))%Z by lia.
    destruct t; cbn [is_lower]; unfold sum_from; (eapply ex_part; [apply ex_zero|apply seq_NoDup| | |]);
    try (intros k Hk; apply in_seq in Hk; lia);
    try (intros k Hk; apply in_seq in Hk; apply He'; [lia|split; [simpl; lia|discriminate]]);
    (intros k Hk Hn; rewrite in_seq in Hn; rewrite Hz by (simpl; lia); auto).
  - destruct t; cbn [is_lower]; unfold sum_from; (apply ex_last with (i := i) (t := z) (b := fun k => Z.abs (z k)); auto);
    try (apply nd_seq; lia); try (intros k Hk; apply in_seq in Hk; lia); try (cbv beta; apply Hl; reflexivity);
    try (intros k Hk; apply in_seq in Hk; try lia; apply He'; [lia|split; [simpl; lia|intros; lia]]);
    (intros k Hk Hn; simpl in Hn; rewrite in_seq in Hn; rewrite Hz by (simpl; lia); auto).
Qed.
Lemma added_ex : forall t d n i l (e : nat -> O) (dg : O) z, i < n -> NoDup (i :: l) -> (forall k, In k l <-> k < n /\ in_tri t i k /\ i <> k) ->
  (forall k, k < n -> stored t d i k -> i <> k -> ex (e k : fl) (z k) (Z.abs (z k))) -> ex (dg : fl) (z i) (Z.abs (z i)) ->
  (forall k, k < n -> ~ in_tri t i k -> z k = 0%Z) ->
  ex (added dg l e : fl) (zsum n z) (zsum n (fun k => Z.abs (z k))).
Proof.
  intros t d n i l e dg z Hi ND Hl He' Hd Hz. unfold added. apply ex_first with (i := i) (t := z) (b := fun k => Z.abs (z k)); auto.
  - intros k Hk. apply Hl in Hk. tauto.
  - intros k Hk Hn. rewrite Hz; auto. intros T. apply Hn. simpl. destruct (Nat.eq_dec i k); auto. right. apply Hl. auto.
  - intros k Hk. apply Hl in Hk. apply He'; try tauto. split; tauto.
Qed.
Lemma row_order_ok : forall t n i, i < n -> NoDup (i :: row_order t n i) /\ forall k, In k (row_order t n i) <-> k < n /\ in_tri t i k /\ i <> k.
Proof.
  intros t n i Hi. destruct t; cbn [row_order]; (split; [constructor; [rewrite <- ?in_rev, in_seq; lia|try apply NoDup_rev; apply seq_NoDup]|]);
  intros k; rewrite <- ?in_rev, in_seq; simpl; lia.
Qed.
Lemma col_order_ok : forall t n i, i < n -> NoDup (i :: col_order t n i) /\ forall k, In k (col_order t n i) <-> k < n /\ in_tri (flip t) i k /\ i <> k.
Proof.
  intros t n i Hi. destruct t; cbn [col_order]; (split; [constructor; [rewrite in_seq; lia|apply seq_NoDup]|]);
  intros k; rewrite in_seq; simpl; lia.
Qed.
End Tri.

Lemma scale_fused : forall prec emax (Hp : FLX.Prec_gt_0 prec) (He : Prec_lt_emax prec emax) (m : mem (fma_ops prec emax Hp He)) (alpha : fma_ops prec emax Hp He) x f (q : nat -> Z) (al : Z),
  vec_holds m x f -> vwritable x ->
  (forall i, i < vext x -> surely (f i) (q i)) ->
  surely alpha al ->
  succeeds (scale_1 alpha x) m (fun _ m' => exists r, vec_holds m' x r /\ forall i, i < vext x ->
    fits_in prec (Z.abs (q i * al))%Z -> surely (r i) (q i * al)%Z).
Proof.
  intros prec emax Hp He m alpha x f q al; intros. eapply wp_conseq; [apply scale_1_ok; eauto; try (intros; reflexivity)|]. intros [] m' [K1 _].
  eexists; split; [exact K1|]. cbv beta. intros i Hi. start. xx.
Qed.
Lemma scale_2_fused : forall prec emax (Hp : FLX.Prec_gt_0 prec) (He : Prec_lt_emax prec emax) (m : mem (fma_ops prec emax Hp He)) (alpha : fma_ops prec emax Hp He) x f (q : nat -> nat -> Z) (al : Z),
  mat_holds m x f -> mwritable x ->
  (forall i j, i < ext0 x -> j < ext1 x -> surely (f i j) (q i j)) ->
  surely alpha al ->
  succeeds (scale_2 alpha x) m (fun _ m' => exists r, mat_holds m' x r /\ forall i j, i < ext0 x -> j < ext1 x ->
    fits_in prec (Z.abs (q i j * al))%Z -> surely (r i j) (q i j * al)%Z).
Proof.
  intros prec emax Hp He m alpha x f q al; intros. eapply wp_conseq; [apply scale_2_ok; eauto; try (intros; reflexivity)|]. intros [] m' [K1 _].
  eexists; split; [exact K1|]. cbv beta. intros i j Hi Hj. start. xx.
Qed.
Lemma add_fused : forall prec emax (Hp : FLX.Prec_gt_0 prec) (He : Prec_lt_emax prec emax) (m : mem (fma_ops prec emax Hp He)) x y z f g (q : nat -> Z) (s : nat -> Z),
  vext x = vext z -> vext y = vext z -> vec_holds m x f -> vec_holds m y g ->
  vwritable z -> allocated m (vcells z) -> disjoint_or_aligned_v x z -> disjoint_or_aligned_v y z ->
  (forall i, i < vext x -> surely (f i) (q i)) ->
  (forall i, i < vext y -> surely (g i) (s i)) ->
  succeeds (add_1 x y z) m (fun _ m' => exists r, vec_holds m' z r /\ forall i, i < vext z ->
    fits_in prec (Z.abs (q i) + Z.abs (s i))%Z -> surely (r i) (q i + s i)%Z).
Proof.
  intros prec emax Hp He m x y z f g q s; intros. eapply wp_conseq; [apply add_1_ok; eauto; try (intros; reflexivity)|]. intros [] m' [K1 _].
  eexists; split; [exact K1|]. cbv beta. intros i Hi. start. xx.
Qed.
Lemma add_2_fused : forall prec emax (Hp : FLX.Prec_gt_0 prec) (He : Prec_lt_emax prec emax) (m : mem (fma_ops prec emax Hp He)) x y z f g (q : nat -> nat -> Z) (s : nat -> nat -> Z),
  ext0 x = ext0 z -> ext1 x = ext1 z -> ext0 y = ext0 z -> ext1 y = ext1 z ->
  mat_holds m x f -> mat_holds m y g ->
  mwritable z -> allocated m (mcells z) -> disjoint_or_aligned_m x z -> disjoint_or_aligned_m y z ->
  (forall i j, i < ext0 x -> j < ext1 x -> surely (f i j) (q i j)) ->
  (forall i j, i < ext0 y -> j < ext1 y -> surely (g i j) (s i j)) ->
  succeeds (add_2 x y z) m (fun _ m' => exists r, mat_holds m' z r /\ forall i j, i < ext0 z -> j < ext1 z ->
    fits_in prec (Z.abs (q i j) + Z.abs (s i j))%Z -> surely (r i j) (q i j + s i j)%Z).
Proof.
  intros prec emax Hp He m x y z f g q s; intros. eapply wp_conseq; [apply add_2_ok; eauto; try (intros; reflexivity)|]. intros [] m' [K1 _].
  eexists; split; [exact K1|]. cbv beta. intros i j Hi Hj. start. xx.
Qed.
Lemma dot_fused : forall prec emax (Hp : FLX.Prec_gt_0 prec) (He : Prec_lt_emax prec emax) (m : mem (fma_ops prec emax Hp He)) x y f g (init : fma_ops prec emax Hp He) (q : nat -> Z) (s : nat -> Z) (z0 : Z),
  vext x = vext y -> vec_holds m x f -> vec_holds m y g ->
  (forall i, i < vext x -> surely (f i) (q i)) ->
  (forall i, i < vext y -> surely (g i) (s i)) ->
  surely init z0 ->
  succeeds (dot x y init) m (fun r _ => fits_in prec (Z.abs (z0) + zsum (vext x) (fun k => Z.abs (q k * s k)))%Z -> surely r (z0 + zsum (vext x) (fun k => q k * s k))%Z).
Proof.
  intros prec emax Hp He m x y f g init q s z0; intros. eapply wp_conseq; [apply dot_ok; eauto; try (intros; reflexivity)|]. intros r m' [-> _]. start. xx.
Qed.
Lemma dotc_fused : forall prec emax (Hp : FLX.Prec_gt_0 prec) (He : Prec_lt_emax prec emax) (m : mem (fma_ops prec emax Hp He)) fix_nc nc x y f g (init : fma_ops prec emax Hp He) (q : nat -> Z) (s : nat -> Z) (z0 : Z),
  vext x = vext y -> vec_holds m x f -> vec_holds m y g ->
  (forall i, i < vext x -> surely (f i) (q i)) ->
  (forall i, i < vext y -> surely (g i) (s i)) ->
  surely init z0 ->
  succeeds (dotc fix_nc nc x y init) m (fun r _ => fits_in prec (Z.abs (z0) + zsum (vext x) (fun k => Z.abs (q k * s k)))%Z -> surely r (z0 + zsum (vext x) (fun k => q k * s k))%Z).
Proof.
  intros prec emax Hp He m fix_nc nc x y f g init q s z0; intros. eapply wp_conseq; [apply dotc_ok; eauto; try (intros; reflexivity)|]. intros r m' [-> _]. start. xx.
Qed.
Lemma gemv_fused : forall prec emax (Hp : FLX.Prec_gt_0 prec) (He : Prec_lt_emax prec emax) (m : mem (fma_ops prec emax Hp He)) A x y a f (q : nat -> Z) (p : nat -> nat -> Z),
  vext x = ext1 A -> vext y = ext0 A ->
  mat_holds m A a -> vec_holds m x f -> vwritable y -> allocated m (vcells y) ->
  disjoint (mcells A) (vcells y) -> disjoint (vcells x) (vcells y) ->
  (forall i, i < vext x -> surely (f i) (q i)) ->
  (forall i j, i < ext0 A -> j < ext1 A -> surely (a i j) (p i j)) ->
  succeeds (matrix_vector_product A x y) m (fun _ m' => exists r, vec_holds m' y r /\ forall i, i < vext y ->
    fits_in prec (zsum (ext1 A) (fun k => Z.abs (p i k * q k)))%Z -> surely (r i) (zsum (ext1 A) (fun k => p i k * q k))%Z).
Proof.
  intros prec emax Hp He m A x y a f q p; intros. eapply wp_conseq; [apply gemv_ok; eauto; try (intros; reflexivity)|]. intros [] m' [K1 _].
  eexists; split; [exact K1|]. cbv beta. intros i Hi. start. xx.
Qed.
Lemma gemv_upd_fused : forall prec emax (Hp : FLX.Prec_gt_0 prec) (He : Prec_lt_emax prec emax) (m : mem (fma_ops prec emax Hp He)) A x y z a f g (q : nat -> Z) (s : nat -> Z) (p : nat -> nat -> Z),
  vext x = ext1 A -> vext y = ext0 A -> vext z = ext0 A ->
  mat_holds m A a -> vec_holds m x f -> vec_holds m y g -> vwritable z -> allocated m (vcells z) ->
  disjoint (mcells A) (vcells z) -> disjoint (vcells x) (vcells z) -> disjoint_or_aligned_v y z ->
  (forall i, i < vext x -> surely (f i) (q i)) ->
  (forall i, i < vext y -> surely (g i) (s i)) ->
  (forall i j, i < ext0 A -> j < ext1 A -> surely (a i j) (p i j)) ->
  succeeds (matrix_vector_product_upd A x y z) m (fun _ m' => exists r, vec_holds m' z r /\ forall i, i < vext z ->
    fits_in prec (Z.abs (s i) + zsum (ext1 A) (fun k => Z.abs (p i k * q k)))%Z -> surely (r i) (s i + zsum (ext1 A) (fun k => p i k * q k))%Z).
Proof.
  intros prec emax Hp He m A x y z a f g q s p; intros. eapply wp_conseq; [apply gemv_upd_ok with (g := g); eauto; try (intros; reflexivity)|]. intros [] m' [K1 _].
  eexists; split; [exact K1|]. cbv beta. intros i Hi. start. xx.
Qed.
Lemma symv_fused : forall prec emax (Hp : FLX.Prec_gt_0 prec) (He : Prec_lt_emax prec emax) (m : mem (fma_ops prec emax Hp He)) A t x y a f (q : nat -> Z) (p : nat -> nat -> Z),
  ext0 A = ext1 A -> vext x = ext1 A -> vext y = ext0 A ->
  mat_holds_on m A (in_tri t) a -> vec_holds m x f -> vwritable y -> allocated m (vcells y) ->
  disjoint (mcells_on A (in_tri t)) (vcells y) -> disjoint (vcells x) (vcells y) ->
  (forall i, i < vext x -> surely (f i) (q i)) ->
  (forall i j, i < ext0 A -> j < ext1 A -> in_tri t i j -> surely (a i j) (p i j)) ->
  symmetric_z p ->
  succeeds (symmetric_matrix_vector_product A t x y) m (fun _ m' => exists r, vec_holds m' y r /\ forall i, i < vext y ->
    fits_in prec (zsum (ext1 A) (fun k => Z.abs (p i k * q k)))%Z -> surely (r i) (zsum (ext1 A) (fun k => p i k * q k))%Z).
Proof.
  intros prec emax Hp He m A t x y a f q p; intros. eapply wp_conseq; [apply symv_ok; eauto; try (intros; reflexivity)|]. intros [] m' [K1 _].
  eexists; split; [exact K1|]. cbv beta. intros i Hi. start. xx.
Qed.
Lemma symv_upd_fused : forall prec emax (Hp : FLX.Prec_gt_0 prec) (He : Prec_lt_emax prec emax) (m : mem (fma_ops prec emax Hp He)) A t x y z a f g (q : nat -> Z) (s : nat -> Z) (p : nat -> nat -> Z),
  ext0 A = ext1 A -> vext x = ext1 A -> vext y = ext0 A -> vext z = ext0 A ->
  mat_holds_on m A (in_tri t) a -> vec_holds m x f -> vec_holds m y g -> vwritable z -> allocated m (vcells z) ->
  disjoint (mcells_on A (in_tri t)) (vcells z) -> disjoint (vcells x) (vcells z) -> disjoint_or_aligned_v y z ->
  (forall i, i < vext x -> surely (f i) (q i)) ->
  (forall i, i < vext y -> surely (g i) (s i)) ->
  (forall i j, i < ext0 A -> j < ext1 A -> in_tri t i j -> surely (a i j) (p i j)) ->
  symmetric_z p ->
  succeeds (symmetric_matrix_vector_product_upd A t x y z) m (fun _ m' => exists r, vec_holds m' z r /\ forall i, i < vext z ->
    fits_in prec (Z.abs (s i) + zsum (ext1 A) (fun k => Z.abs (p i k * q k)))%Z -> surely (r i) (s i + zsum (ext1 A) (fun k => p i k * q k))%Z).
Proof.
  intros prec emax Hp He m A t x y z a f g q s p; intros. eapply wp_conseq; [apply symv_upd_ok with (g := g); eauto; try (intros; reflexivity)|]. intros [] m' [K1 _].
  eexists; split; [exact K1|]. cbv beta. intros i Hi. start. xx.
Qed.
Lemma hemv_fused : forall prec emax (Hp : FLX.Prec_gt_0 prec) (He : Prec_lt_emax prec emax) (m : mem (fma_ops prec emax Hp He)) A t x y a f (q : nat -> Z) (p : nat -> nat -> Z),
  ext0 A = ext1 A -> vext x = ext1 A -> vext y = ext0 A ->
  mat_holds_on m A (in_tri t) a -> vec_holds m x f -> vwritable y -> allocated m (vcells y) ->
  disjoint (mcells_on A (in_tri t)) (vcells y) -> disjoint (vcells x) (vcells y) ->
  (forall i, i < vext x -> surely (f i) (q i)) ->
  (forall i j, i < ext0 A -> j < ext1 A -> in_tri t i j -> surely (a i j) (p i j)) ->
  symmetric_z p ->
  succeeds (hermitian_matrix_vector_product A t x y) m (fun _ m' => exists r, vec_holds m' y r /\ forall i, i < vext y ->
    fits_in prec (zsum (ext1 A) (fun k => Z.abs (p i k * q k)))%Z -> surely (r i) (zsum (ext1 A) (fun k => p i k * q k))%Z).
Proof.
  intros prec emax Hp He m A t x y a f q p; intros. eapply wp_conseq; [apply hemv_ok; eauto; try (intros; reflexivity)|]. intros [] m' [K1 _].
  eexists; split; [exact K1|]. cbv beta. intros i Hi. start. xx.
Qed.
Lemma hemv_upd_fused : forall prec emax (Hp : FLX.Prec_gt_0 prec) (He : Prec_lt_emax prec emax) (m : mem (fma_ops prec emax Hp He)) A t x y z a f g (q : nat -> Z) (s : nat -> Z) (p : nat -> nat -> Z),
  ext0 A = ext1 A -> vext x = ext1 A -> vext y = ext0 A -> vext z = ext0 A ->
  mat_holds_on m A (in_tri t) a -> vec_holds m x f -> vec_holds m y g -> vwritable z -> allocated m (vcells z) ->
  disjoint (mcells_on A (in_tri t)) (vcells z) -> disjoint (vcells x) (vcells z) -> disjoint_or_aligned_v y z ->
  (forall i, i < vext x -> surely (f i) (q i)) ->
  (forall i, i < vext y -> surely (g i) (s i)) ->
  (forall i j, i < ext0 A -> j < ext1 A -> in_tri t i j -> surely (a i j) (p i j)) ->
  symmetric_z p ->
  succeeds (hermitian_matrix_vector_product_upd A t x y z) m (fun _ m' => exists r, vec_holds m' z r /\ forall i, i < vext z ->
    fits_in prec (Z.abs (s i) + zsum (ext1 A) (fun k => Z.abs (p i k * q k)))%Z -> surely (r i) (s i + zsum (ext1 A) (fun k => p i k * q k))%Z).
Proof.
  intros prec emax Hp He m A t x y z a f g q s p; intros. eapply wp_conseq; [apply hemv_upd_ok with (g := g); eauto; try (intros; reflexivity)|]. intros [] m' [K1 _].
  eexists; split; [exact K1|]. cbv beta. intros i Hi. start. xx.
Qed.
Lemma trmv_fused : forall prec emax (Hp : FLX.Prec_gt_0 prec) (He : Prec_lt_emax prec emax) (m : mem (fma_ops prec emax Hp He)) A t d x y a f (q : nat -> Z) (p : nat -> nat -> Z),
  ext0 A = ext1 A -> vext x = ext1 A -> vext y = ext0 A ->
  mat_holds_on m A (stored t d) a -> vec_holds m x f -> vwritable y -> allocated m (vcells y) ->
  disjoint (mcells_on A (stored t d)) (vcells y) -> disjoint (vcells x) (vcells y) ->
  (forall i, i < vext x -> surely (f i) (q i)) ->
  (forall i j, i < ext0 A -> j < ext1 A -> stored t d i j -> surely (a i j) (p i j)) ->
  triangular_z t d p ->
  succeeds (triangular_matrix_vector_product A t d x y) m (fun _ m' => exists r, vec_holds m' y r /\ forall i, i < vext y ->
    fits_in prec (zsum (ext1 A) (fun k => Z.abs (p i k * q k)))%Z -> surely (r i) (zsum (ext1 A) (fun k => p i k * q k))%Z).
Proof.
  intros prec emax Hp He m A t d x y a f q p; intros. eapply wp_conseq; [apply trmv_ok; eauto; try (intros; reflexivity)|]. intros [] m' [K1 _].
  eexists; split; [exact K1|]. cbv beta. intros i Hi. start. apply (tri_row_ex prec emax Hp He t d (ext1 A) a f p q (zero : fma_ops prec emax Hp He) 0 0); auto; try lia; try apply ex_zero; intros; leaf.
Qed.
Lemma trmv_upd_fused : forall prec emax (Hp : FLX.Prec_gt_0 prec) (He : Prec_lt_emax prec emax) (m : mem (fma_ops prec emax Hp He)) A t d x y z a f g (q : nat -> Z) (s : nat -> Z) (p : nat -> nat -> Z),
  ext0 A = ext1 A -> vext x = ext1 A -> vext y = ext0 A -> vext z = ext0 A ->
  mat_holds_on m A (stored t d) a -> vec_holds m x f -> vec_holds m y g -> vwritable z -> allocated m (vcells z) ->
  disjoint (mcells_on A (stored t d)) (vcells z) -> disjoint (vcells x) (vcells z) -> disjoint_or_aligned_v y z ->
  (forall i, i < vext x -> surely (f i) (q i)) ->
  (forall i, i < vext y -> surely (g i) (s i)) ->
  (forall i j, i < ext0 A -> j < ext1 A -> stored t d i j -> surely (a i j) (p i j)) ->
  triangular_z t d p ->
  succeeds (triangular_matrix_vector_product_upd A t d x y z) m (fun _ m' => exists r, vec_holds m' z r /\ forall i, i < vext z ->
    fits_in prec (Z.abs (s i) + zsum (ext1 A) (fun k => Z.abs (p i k * q k)))%Z -> surely (r i) (s i + zsum (ext1 A) (fun k => p i k * q k))%Z).
Proof.
  intros prec emax Hp He m A t d x y z a f g q s p; intros. eapply wp_conseq; [apply trmv_upd_ok with (g := g); eauto; try (intros; reflexivity)|]. intros [] m' [K1 _].
  eexists; split; [exact K1|]. cbv beta. intros i Hi. start. apply tri_row_ex; auto; try lia; try xx; intros; leaf.
Qed.
Lemma trmv_inplace_fused : forall prec emax (Hp : FLX.Prec_gt_0 prec) (He : Prec_lt_emax prec emax) (m : mem (fma_ops prec emax Hp He)) A t d y a f (q : nat -> Z) (p : nat -> nat -> Z),
  ext0 A = ext1 A -> vext y = ext0 A ->
  mat_holds_on m A (stored t d) a -> vec_holds m y f -> vwritable y ->
  disjoint (mcells_on A (stored t d)) (vcells y) ->
  (forall i, i < vext y -> surely (f i) (q i)) ->
  (forall i j, i < ext0 A -> j < ext1 A -> stored t d i j -> surely (a i j) (p i j)) ->
  triangular_z t d p ->
  succeeds (triangular_matrix_vector_product_inplace A t d y) m (fun _ m' => exists r, vec_holds m' y r /\ forall i, i < vext y ->
    fits_in prec (zsum (ext1 A) (fun k => Z.abs (p i k * q k)))%Z -> surely (r i) (zsum (ext1 A) (fun k => p i k * q k))%Z).
Proof.
  intros prec emax Hp He m A t d y a f q p; intros. eapply wp_conseq; [apply trmv_inplace_exact; eauto; try (intros; reflexivity)|]. intros [] m' [K1 _].
  eexists; split; [exact K1|]. cbv beta. intros i Hi. start. destruct (row_order_ok t (ext1 A) i) as [R1 R2]; [lia|].
  apply added_ex with (t := t) (d := d) (i := i) (z := fun k => (p i k * q k)%Z); auto; try lia; [intros; xx| |intros; out; rewrite TZ by auto; reflexivity].
  out. destruct d; simpl times_diag; [rewrite (Z.mul_comm (p i i)); assert (stored t Explicit i i) by (split; [destruct t; simpl; lia|discriminate]); xx|rewrite TU, Z.mul_1_l by auto; apply ex_in; leaf].
Qed.
Lemma ger_fused : forall prec emax (Hp : FLX.Prec_gt_0 prec) (He : Prec_lt_emax prec emax) (m : mem (fma_ops prec emax Hp He)) x y A a f g (q : nat -> Z) (s : nat -> Z) (p : nat -> nat -> Z),
  vext x = ext0 A -> vext y = ext1 A ->
  mat_holds m A a -> vec_holds m x f -> vec_holds m y g -> mwritable A ->
  disjoint (vcells x) (mcells A) -> disjoint (vcells y) (mcells A) ->
  (forall i, i < vext x -> surely (f i) (q i)) ->
  (forall i, i < vext y -> surely (g i) (s i)) ->
  (forall i j, i < ext0 A -> j < ext1 A -> surely (a i j) (p i j)) ->
  succeeds (matrix_rank_1_update x y A) m (fun _ m' => exists r, mat_holds m' A r /\ forall i j, i < ext0 A -> j < ext1 A ->
    fits_in prec (Z.abs (p i j) + Z.abs (q i * s j))%Z -> surely (r i j) (p i j + q i * s j)%Z).
Proof.
  intros prec emax Hp He m x y A a f g q s p; intros. eapply wp_conseq; [apply ger_ok; eauto; try (intros; reflexivity)|]. intros [] m' [K1 _].
  eexists; split; [exact K1|]. cbv beta. intros i j Hi Hj. start. xx.
Qed.
Lemma gerc_fused : forall prec emax (Hp : FLX.Prec_gt_0 prec) (He : Prec_lt_emax prec emax) (m : mem (fma_ops prec emax Hp He)) fix_nc nc x y A a f g (q : nat -> Z) (s : nat -> Z) (p : nat -> nat -> Z),
  vext x = ext0 A -> vext y = ext1 A ->
  mat_holds m A a -> vec_holds m x f -> vec_holds m y g -> mwritable A ->
  disjoint (vcells x) (mcells A) -> disjoint (vcells y) (mcells A) ->
  (forall i, i < vext x -> surely (f i) (q i)) ->
  (forall i, i < vext y -> surely (g i) (s i)) ->
  (forall i j, i < ext0 A -> j < ext1 A -> surely (a i j) (p i j)) ->
  succeeds (matrix_rank_1_update_c fix_nc nc x y A) m (fun _ m' => exists r, mat_holds m' A r /\ forall i j, i < ext0 A -> j < ext1 A ->
    fits_in prec (Z.abs (p i j) + Z.abs (q i * s j))%Z -> surely (r i j) (p i j + q i * s j)%Z).
Proof.
  intros prec emax Hp He m fix_nc nc x y A a f g q s p; intros. eapply wp_conseq; [apply gerc_ok; eauto; try (intros; reflexivity)|]. intros [] m' [K1 _].
  eexists; split; [exact K1|]. cbv beta. intros i j Hi Hj. start. xx.
Qed.
Lemma syr_fused : forall prec emax (Hp : FLX.Prec_gt_0 prec) (He : Prec_lt_emax prec emax) (m : mem (fma_ops prec emax Hp He)) x A t a f (q : nat -> Z) (p : nat -> nat -> Z),
  ext0 A = ext1 A -> vext x = ext0 A ->
  mat_holds_on m A (in_tri t) a -> vec_holds m x f -> mwritable_on A (in_tri t) ->
  disjoint (vcells x) (mcells_on A (in_tri t)) ->
  (forall i, i < vext x -> surely (f i) (q i)) ->
  (forall i j, i < ext0 A -> j < ext1 A -> in_tri t i j -> surely (a i j) (p i j)) ->
  succeeds (symmetric_matrix_rank_1_update x A t) m (fun _ m' => exists r, mat_holds_on m' A (in_tri t) r /\ forall i j, i < ext0 A -> j < ext1 A -> in_tri t i j ->
    fits_in prec (Z.abs (p i j) + Z.abs (q i * q j))%Z -> surely (r i j) (p i j + q i * q j)%Z).
Proof.
  intros prec emax Hp He m x A t a f q p; intros. eapply wp_conseq; [apply syr_ok; eauto; try (intros; reflexivity)|]. intros [] m' [K1 _].
  eexists; split; [exact K1|]. cbv beta. intros i j Hi Hj Ht. start. xx.
Qed.
Lemma syr2_fused : forall prec emax (Hp : FLX.Prec_gt_0 prec) (He : Prec_lt_emax prec emax) (m : mem (fma_ops prec emax Hp He)) x y A t a f g (q : nat -> Z) (s : nat -> Z) (p : nat -> nat -> Z),
  ext0 A = ext1 A -> vext x = ext0 A -> vext y = ext0 A ->
  mat_holds_on m A (in_tri t) a -> vec_holds m x f -> vec_holds m y g -> mwritable_on A (in_tri t) ->
  disjoint (vcells x) (mcells_on A (in_tri t)) -> disjoint (vcells y) (mcells_on A (in_tri t)) ->
  (forall i, i < vext x -> surely (f i) (q i)) ->
  (forall i, i < vext y -> surely (g i) (s i)) ->
  (forall i j, i < ext0 A -> j < ext1 A -> in_tri t i j -> surely (a i j) (p i j)) ->
  succeeds (symmetric_matrix_rank_2_update x y A t) m (fun _ m' => exists r, mat_holds_on m' A (in_tri t) r /\ forall i j, i < ext0 A -> j < ext1 A -> in_tri t i j ->
    fits_in prec (Z.abs (p i j) + (Z.abs (q i * s j) + Z.abs (s i * q j)))%Z -> surely (r i j) (p i j + (q i * s j + s i * q j))%Z).
Proof.
  intros prec emax Hp He m x y A t a f g q s p; intros. eapply wp_conseq; [apply syr2_ok; eauto; try (intros; reflexivity)|]. intros [] m' [K1 _].
  eexists; split; [exact K1|]. cbv beta. intros i j Hi Hj Ht. start. xx.
Qed.
Lemma her_fused : forall prec emax (Hp : FLX.Prec_gt_0 prec) (He : Prec_lt_emax prec emax) (m : mem (fma_ops prec emax Hp He)) x A t a f (q : nat -> Z) (p : nat -> nat -> Z),
  ext0 A = ext1 A -> vext x = ext0 A ->
  mat_holds_on m A (in_tri t) a -> vec_holds m x f -> mwritable_on A (in_tri t) ->
  disjoint (vcells x) (mcells_on A (in_tri t)) ->
  (forall i, i < vext x -> surely (f i) (q i)) ->
  (forall i j, i < ext0 A -> j < ext1 A -> in_tri t i j -> surely (a i j) (p i j)) ->
  succeeds (hermitian_matrix_rank_1_update x A t) m (fun _ m' => exists r, mat_holds_on m' A (in_tri t) r /\ forall i j, i < ext0 A -> j < ext1 A -> in_tri t i j ->
    fits_in prec (Z.abs (p i j) + Z.abs (q i * q j))%Z -> surely (r i j) (p i j + q i * q j)%Z).
Proof.
  intros prec emax Hp He m x A t a f q p; intros. eapply wp_conseq; [apply her_ok; eauto; try (intros; reflexivity)|]. intros [] m' [K1 _].
  eexists; split; [exact K1|]. cbv beta. intros i j Hi Hj Ht. start. xx.
Qed.
Lemma her2_fused : forall prec emax (Hp : FLX.Prec_gt_0 prec) (He : Prec_lt_emax prec emax) (m : mem (fma_ops prec emax Hp He)) x y A t a f g (q : nat -> Z) (s : nat -> Z) (p : nat -> nat -> Z),
  ext0 A = ext1 A -> vext x = ext0 A -> vext y = ext0 A ->
  mat_holds_on m A (in_tri t) a -> vec_holds m x f -> vec_holds m y g -> mwritable_on A (in_tri t) ->
  disjoint (vcells x) (mcells_on A (in_tri t)) -> disjoint (vcells y) (mcells_on A (in_tri t)) ->
  (forall i, i < vext x -> surely (f i) (q i)) ->
  (forall i, i < vext y -> surely (g i) (s i)) ->
  (forall i j, i < ext0 A -> j < ext1 A -> in_tri t i j -> surely (a i j) (p i j)) ->
  succeeds (hermitian_matrix_rank_2_update x y A t) m (fun _ m' => exists r, mat_holds_on m' A (in_tri t) r /\ forall i j, i < ext0 A -> j < ext1 A -> in_tri t i j ->
    fits_in prec (Z.abs (p i j) + (Z.abs (q i * s j) + Z.abs (s i * q j)))%Z -> surely (r i j) (p i j + (q i * s j + s i * q j))%Z).
Proof.
  intros prec emax Hp He m x y A t a f g q s p; intros. eapply wp_conseq; [apply her2_ok; eauto; try (intros; reflexivity)|]. intros [] m' [K1 _].
  eexists; split; [exact K1|]. cbv beta. intros i j Hi Hj Ht. start. xx.
Qed.
Lemma gemm_fused : forall prec emax (Hp : FLX.Prec_gt_0 prec) (He : Prec_lt_emax prec emax) (m : mem (fma_ops prec emax Hp He)) A B C a b (p : nat -> nat -> Z) (u : nat -> nat -> Z),
  ext0 C = ext0 A -> ext1 A = ext0 B -> ext1 C = ext1 B ->
  mat_holds m A a -> mat_holds m B b -> mwritable C -> allocated m (mcells C) ->
  disjoint (mcells A) (mcells C) -> disjoint (mcells B) (mcells C) ->
  (forall i j, i < ext0 A -> j < ext1 A -> surely (a i j) (p i j)) ->
  (forall i j, i < ext0 B -> j < ext1 B -> surely (b i j) (u i j)) ->
  succeeds (matrix_product A B C) m (fun _ m' => exists r, mat_holds m' C r /\ forall i j, i < ext0 C -> j < ext1 C ->
    fits_in prec (zsum (ext1 A) (fun k => Z.abs (p i k * u k j)))%Z -> surely (r i j) (zsum (ext1 A) (fun k => p i k * u k j))%Z).
Proof.
  intros prec emax Hp He m A B C a b p u; intros. eapply wp_conseq; [apply gemm_ok; eauto; try (intros; reflexivity)|]. intros [] m' [K1 _].
  eexists; split; [exact K1|]. cbv beta. intros i j Hi Hj. start. xx.
Qed.
Lemma gemm_upd_fused : forall prec emax (Hp : FLX.Prec_gt_0 prec) (He : Prec_lt_emax prec emax) (m : mem (fma_ops prec emax Hp He)) A B E C a b e (p : nat -> nat -> Z) (u : nat -> nat -> Z) (w : nat -> nat -> Z),
  ext0 C = ext0 A -> ext1 A = ext0 B -> ext1 C = ext1 B -> ext0 E = ext0 C -> ext1 E = ext1 C ->
  mat_holds m A a -> mat_holds m B b -> mat_holds m E e -> mwritable C -> allocated m (mcells C) ->
  disjoint (mcells A) (mcells C) -> disjoint (mcells B) (mcells C) -> disjoint_or_aligned_m E C ->
  (forall i j, i < ext0 A -> j < ext1 A -> surely (a i j) (p i j)) ->
  (forall i j, i < ext0 B -> j < ext1 B -> surely (b i j) (u i j)) ->
  (forall i j, i < ext0 E -> j < ext1 E -> surely (e i j) (w i j)) ->
  succeeds (matrix_product_upd A B E C) m (fun _ m' => exists r, mat_holds m' C r /\ forall i j, i < ext0 C -> j < ext1 C ->
    fits_in prec (Z.abs (w i j) + zsum (ext1 A) (fun k => Z.abs (p i k * u k j)))%Z -> surely (r i j) (w i j + zsum (ext1 A) (fun k => p i k * u k j))%Z).
Proof.
  intros prec emax Hp He m A B E C a b e p u w; intros. eapply wp_conseq; [apply gemm_upd_ok with (e := e); eauto; try (intros; reflexivity)|]. intros [] m' [K1 _].
  eexists; split; [exact K1|]. cbv beta. intros i j Hi Hj. start. xx.
Qed.
Lemma symm_left_fused : forall prec emax (Hp : FLX.Prec_gt_0 prec) (He : Prec_lt_emax prec emax) (m : mem (fma_ops prec emax Hp He)) A t B C a b (u : nat -> nat -> Z) (p : nat -> nat -> Z),
  ext0 A = ext1 A -> ext0 C = ext0 A -> ext1 A = ext0 B -> ext1 C = ext1 B ->
  mat_holds_on m A (in_tri t) a -> mat_holds m B b -> mwritable C -> allocated m (mcells C) ->
  disjoint (mcells_on A (in_tri t)) (mcells C) -> disjoint (mcells B) (mcells C) ->
  (forall i j, i < ext0 B -> j < ext1 B -> surely (b i j) (u i j)) ->
  (forall i j, i < ext0 A -> j < ext1 A -> in_tri t i j -> surely (a i j) (p i j)) ->
  symmetric_z p ->
  succeeds (symmetric_matrix_product_left A t B C) m (fun _ m' => exists r, mat_holds m' C r /\ forall i j, i < ext0 C -> j < ext1 C ->
    fits_in prec (zsum (ext1 A) (fun k => Z.abs (p i k * u k j)))%Z -> surely (r i j) (zsum (ext1 A) (fun k => p i k * u k j))%Z).
Proof.
  intros prec emax Hp He m A t B C a b u p; intros. eapply wp_conseq; [apply symm_left_ok; eauto; try (intros; reflexivity)|]. intros [] m' [K1 _].
  eexists; split; [exact K1|]. cbv beta. intros i j Hi Hj. start. xx.
Qed.
Lemma symm_right_fused : forall prec emax (Hp : FLX.Prec_gt_0 prec) (He : Prec_lt_emax prec emax) (m : mem (fma_ops prec emax Hp He)) B A t C a b (u : nat -> nat -> Z) (p : nat -> nat -> Z),
  ext0 A = ext1 A -> ext0 C = ext0 B -> ext1 B = ext0 A -> ext1 C = ext1 A ->
  mat_holds_on m A (in_tri t) a -> mat_holds m B b -> mwritable C -> allocated m (mcells C) ->
  disjoint (mcells_on A (in_tri t)) (mcells C) -> disjoint (mcells B) (mcells C) ->
  (forall i j, i < ext0 B -> j < ext1 B -> surely (b i j) (u i j)) ->
  (forall i j, i < ext0 A -> j < ext1 A -> in_tri t i j -> surely (a i j) (p i j)) ->
  symmetric_z p ->
  succeeds (symmetric_matrix_product_right B A t C) m (fun _ m' => exists r, mat_holds m' C r /\ forall i j, i < ext0 C -> j < ext1 C ->
    fits_in prec (zsum (ext1 A) (fun k => Z.abs (u i k * p k j)))%Z -> surely (r i j) (zsum (ext1 A) (fun k => u i k * p k j))%Z).
Proof.
  intros prec emax Hp He m B A t C a b u p; intros. eapply wp_conseq; [apply symm_right_ok; eauto; try (intros; reflexivity)|]. intros [] m' [K1 _].
  eexists; split; [exact K1|]. cbv beta. intros i j Hi Hj. start. xx.
Qed.
Lemma hemm_left_fused : forall prec emax (Hp : FLX.Prec_gt_0 prec) (He : Prec_lt_emax prec emax) (m : mem (fma_ops prec emax Hp He)) A t B C a b (u : nat -> nat -> Z) (p : nat -> nat -> Z),
  ext0 A = ext1 A -> ext0 C = ext0 A -> ext1 A = ext0 B -> ext1 C = ext1 B ->
  mat_holds_on m A (in_tri t) a -> mat_holds m B b -> mwritable C -> allocated m (mcells C) ->
  disjoint (mcells_on A (in_tri t)) (mcells C) -> disjoint (mcells B) (mcells C) ->
  (forall i j, i < ext0 B -> j < ext1 B -> surely (b i j) (u i j)) ->
  (forall i j, i < ext0 A -> j < ext1 A -> in_tri t i j -> surely (a i j) (p i j)) ->
  symmetric_z p ->
  succeeds (hermitian_matrix_product_left A t B C) m (fun _ m' => exists r, mat_holds m' C r /\ forall i j, i < ext0 C -> j < ext1 C ->
    fits_in prec (zsum (ext1 A) (fun k => Z.abs (p i k * u k j)))%Z -> surely (r i j) (zsum (ext1 A) (fun k => p i k * u k j))%Z).
Proof.
  intros prec emax Hp He m A t B C a b u p; intros. eapply wp_conseq; [apply hemm_left_ok; eauto; try (intros; reflexivity)|]. intros [] m' [K1 _].
  eexists; split; [exact K1|]. cbv beta. intros i j Hi Hj. start. xx.
Qed.
Lemma hemm_right_fused : forall prec emax (Hp : FLX.Prec_gt_0 prec) (He : Prec_lt_emax prec emax) (m : mem (fma_ops prec emax Hp He)) B A t C a b (u : nat -> nat -> Z) (p : nat -> nat -> Z),
  ext0 A = ext1 A -> ext0 C = ext0 B -> ext1 B = ext0 A -> ext1 C = ext1 A ->
  mat_holds_on m A (in_tri t) a -> mat_holds m B b -> mwritable C -> allocated m (mcells C) ->
  disjoint (mcells_on A (in_tri t)) (mcells C) -> disjoint (mcells B) (mcells C) ->
  (forall i j, i < ext0 B -> j < ext1 B -> surely (b i j) (u i j)) ->
  (forall i j, i < ext0 A -> j < ext1 A -> in_tri t i j -> surely (a i j) (p i j)) ->
  symmetric_z p ->
  succeeds (hermitian_matrix_product_right B A t C) m (fun _ m' => exists r, mat_holds m' C r /\ forall i j, i < ext0 C -> j < ext1 C ->
    fits_in prec (zsum (ext1 A) (fun k => Z.abs (u i k * p k j)))%Z -> surely (r i j) (zsum (ext1 A) (fun k => u i k * p k j))%Z).
Proof.
  intros prec emax Hp He m B A t C a b u p; intros. eapply wp_conseq; [apply hemm_right_ok; eauto; try (intros; reflexivity)|]. intros [] m' [K1 _].
  eexists; split; [exact K1|]. cbv beta. intros i j Hi Hj. start. xx.
Qed.
Lemma trmm_left_fused : forall prec emax (Hp : FLX.Prec_gt_0 prec) (He : Prec_lt_emax prec emax) ty (m : mem (fma_ops prec emax Hp He)) A t d B C a b (u : nat -> nat -> Z) (p : nat -> nat -> Z),
  fits ty (ext0 C) ->
  ext0 A = ext1 A -> ext0 C = ext0 A -> ext1 A = ext0 B -> ext1 C = ext1 B ->
  mat_holds_on m A (stored t d) a -> mat_holds m B b -> mwritable C -> allocated m (mcells C) ->
  disjoint (mcells_on A (stored t d)) (mcells C) -> disjoint (mcells B) (mcells C) ->
  (forall i j, i < ext0 B -> j < ext1 B -> surely (b i j) (u i j)) ->
  (forall i j, i < ext0 A -> j < ext1 A -> stored t d i j -> surely (a i j) (p i j)) ->
  triangular_z t d p ->
  succeeds (triangular_matrix_product_left ty A t d B C) m (fun _ m' => exists r, mat_holds m' C r /\ forall i j, i < ext0 C -> j < ext1 C ->
    fits_in prec (zsum (ext1 A) (fun k => Z.abs (p i k * u k j)))%Z -> surely (r i j) (zsum (ext1 A) (fun k => p i k * u k j))%Z).
Proof.
  intros prec emax Hp He ty m A t d B C a b u p; intros. eapply wp_conseq; [apply trmm_left_raw; eauto; try (intros; reflexivity)|]. intros [] m' [K1 _].
  eexists; split; [exact K1|]. cbv beta. intros i j Hi Hj. start. apply tri_elem_ex; try lia; intros; [xx| |]; out; [rewrite TU, Z.mul_1_l by auto; apply ex_in; leaf|rewrite TZ by auto; reflexivity].
Qed.
Lemma trmm_right_fused : forall prec emax (Hp : FLX.Prec_gt_0 prec) (He : Prec_lt_emax prec emax) ty (m : mem (fma_ops prec emax Hp He)) B A t d C a b (u : nat -> nat -> Z) (p : nat -> nat -> Z),
  fits ty (ext1 C) ->
  ext0 A = ext1 A -> ext0 C = ext0 B -> ext1 B = ext0 A -> ext1 C = ext1 A ->
  mat_holds_on m A (stored t d) a -> mat_holds m B b -> mwritable C -> allocated m (mcells C) ->
  disjoint (mcells_on A (stored t d)) (mcells C) -> disjoint (mcells B) (mcells C) ->
  (forall i j, i < ext0 B -> j < ext1 B -> surely (b i j) (u i j)) ->
  (forall i j, i < ext0 A -> j < ext1 A -> stored t d i j -> surely (a i j) (p i j)) ->
  triangular_z t d p ->
  succeeds (triangular_matrix_product_right ty B A t d C) m (fun _ m' => exists r, mat_holds m' C r /\ forall i j, i < ext0 C -> j < ext1 C ->
    fits_in prec (zsum (ext1 A) (fun k => Z.abs (u i k * p k j)))%Z -> surely (r i j) (zsum (ext1 A) (fun k => u i k * p k j))%Z).
Proof.
  intros prec emax Hp He ty m B A t d C a b u p; intros. eapply wp_conseq; [apply trmm_right_raw; eauto; try (intros; reflexivity)|]. intros [] m' [K1 _].
  eexists; split; [exact K1|]. cbv beta. intros i j Hi Hj. start. assert (FL : negb (is_lower t) = is_lower (flip t)) by (destruct t; auto). rewrite FL.
  apply tri_elem_ex with (z := fun k => (u i k * p k j)%Z); try lia; [intros k Hk [S1 S2]|intros|intros k Hk Hn].
  - assert (stored t d k j) by (split; [destruct t; simpl in *; lia|intros E F; apply (S2 E); auto]). xx.
  - out. rewrite TU, Z.mul_1_r by auto. apply ex_in. leaf.
  - out. rewrite TZ by (destruct t; simpl in *; lia). apply Z.mul_0_r.
Qed.
Lemma trmm_left_inplace_fused : forall prec emax (Hp : FLX.Prec_gt_0 prec) (He : Prec_lt_emax prec emax) (m : mem (fma_ops prec emax Hp He)) A t d C a c (w : nat -> nat -> Z) (p : nat -> nat -> Z),
  ext0 A = ext1 A -> ext0 C = ext0 A ->
  mat_holds_on m A (stored t d) a -> mat_holds m C c -> mwritable C ->
  disjoint (mcells_on A (stored t d)) (mcells C) ->
  (forall i j, i < ext0 C -> j < ext1 C -> surely (c i j) (w i j)) ->
  (forall i j, i < ext0 A -> j < ext1 A -> stored t d i j -> surely (a i j) (p i j)) ->
  triangular_z t d p ->
  succeeds (triangular_matrix_left_product A t d C) m (fun _ m' => exists r, mat_holds m' C r /\ forall i j, i < ext0 C -> j < ext1 C ->
    fits_in prec (zsum (ext1 A) (fun k => Z.abs (p i k * w k j)))%Z -> surely (r i j) (zsum (ext1 A) (fun k => p i k * w k j))%Z).
Proof.
  intros prec emax Hp He m A t d C a c w p; intros. eapply wp_conseq; [apply trmm_left_inplace_exact; eauto; try (intros; reflexivity)|]. intros [] m' [K1 _].
  eexists; split; [exact K1|]. cbv beta. intros i j Hi Hj. start. destruct (row_order_ok t (ext1 A) i) as [R1 R2]; [lia|].
  apply added_ex with (t := t) (d := d) (i := i) (z := fun k => (p i k * w k j)%Z); auto; try lia; [intros; xx| |intros; out; rewrite TZ by auto; reflexivity].
  out. destruct d; simpl times_diag; [assert (stored t Explicit i i) by (split; [destruct t; simpl; lia|discriminate]); xx|rewrite TU, Z.mul_1_l by auto; apply ex_in; leaf].
Qed.
Lemma trmm_right_inplace_fused : forall prec emax (Hp : FLX.Prec_gt_0 prec) (He : Prec_lt_emax prec emax) (m : mem (fma_ops prec emax Hp He)) A t d C a c (w : nat -> nat -> Z) (p : nat -> nat -> Z),
  ext0 A = ext1 A -> ext1 C = ext0 A ->
  mat_holds_on m A (stored t d) a -> mat_holds m C c -> mwritable C ->
  disjoint (mcells_on A (stored t d)) (mcells C) ->
  (forall i j, i < ext0 C -> j < ext1 C -> surely (c i j) (w i j)) ->
  (forall i j, i < ext0 A -> j < ext1 A -> stored t d i j -> surely (a i j) (p i j)) ->
  triangular_z t d p ->
  succeeds (triangular_matrix_right_product A t d C) m (fun _ m' => exists r, mat_holds m' C r /\ forall i j, i < ext0 C -> j < ext1 C ->
    fits_in prec (zsum (ext1 A) (fun k => Z.abs (w i k * p k j)))%Z -> surely (r i j) (zsum (ext1 A) (fun k => w i k * p k j))%Z).
Proof.
  intros prec emax Hp He m A t d C a c w p; intros. eapply wp_conseq; [apply trmm_right_inplace_exact; eauto; try (intros; reflexivity)|]. intros [] m' [K1 _].
  eexists; split; [exact K1|]. cbv beta. intros i j Hi Hj. start. destruct (col_order_ok t (ext1 A) j) as [R1 R2]; [lia|].
  apply added_ex with (t := flip t) (d := d) (i := j) (z := fun k => (w i k * p k j)%Z); auto; try lia.
  - intros k Hk [S1 S2] NE. assert (stored t d k j) by (split; [destruct t; simpl in *; lia|intros E F; apply (S2 E); auto]). xx.
  - out. destruct d; simpl times_diag; [assert (stored t Explicit j j) by (split; [destruct t; simpl; lia|discriminate]); xx|rewrite TU, Z.mul_1_r by auto; apply ex_in; leaf].
  - intros k Hk Hn. out. rewrite TZ by (destruct t; simpl in *; lia). apply Z.mul_0_r.
Qed.
Lemma syrk_fused : forall prec emax (Hp : FLX.Prec_gt_0 prec) (He : Prec_lt_emax prec emax) (m : mem (fma_ops prec emax Hp He)) A C t a c (p : nat -> nat -> Z) (w : nat -> nat -> Z),
  ext0 C = ext1 C -> ext0 A = ext0 C ->
  mat_holds m A a -> mat_holds_on m C (in_tri t) c -> mwritable_on C (in_tri t) ->
  disjoint (mcells A) (mcells_on C (in_tri t)) ->
  (forall i j, i < ext0 A -> j < ext1 A -> surely (a i j) (p i j)) ->
  (forall i j, i < ext0 C -> j < ext1 C -> in_tri t i j -> surely (c i j) (w i j)) ->
  succeeds (symmetric_matrix_rank_k_update A C t) m (fun _ m' => exists r, mat_holds_on m' C (in_tri t) r /\ forall i j, i < ext0 C -> j < ext1 C -> in_tri t i j ->
    fits_in prec (Z.abs (w i j) + zsum (ext1 A) (fun k => Z.abs (p i k * p j k)))%Z -> surely (r i j) (w i j + zsum (ext1 A) (fun k => p i k * p j k))%Z).
Proof.
  intros prec emax Hp He m A C t a c p w; intros. eapply wp_conseq; [apply syrk_ok; eauto; try (intros; reflexivity)|]. intros [] m' [K1 _].
  eexists; split; [exact K1|]. cbv beta. intros i j Hi Hj Ht. start. xx.
Qed.
Lemma herk_fused : forall prec emax (Hp : FLX.Prec_gt_0 prec) (He : Prec_lt_emax prec emax) (m : mem (fma_ops prec emax Hp He)) A C t a c (p : nat -> nat -> Z) (w : nat -> nat -> Z),
  ext0 C = ext1 C -> ext0 A = ext0 C ->
  mat_holds m A a -> mat_holds_on m C (in_tri t) c -> mwritable_on C (in_tri t) ->
  disjoint (mcells A) (mcells_on C (in_tri t)) ->
  (forall i j, i < ext0 A -> j < ext1 A -> surely (a i j) (p i j)) ->
  (forall i j, i < ext0 C -> j < ext1 C -> in_tri t i j -> surely (c i j) (w i j)) ->
  succeeds (hermitian_matrix_rank_k_update A C t) m (fun _ m' => exists r, mat_holds_on m' C (in_tri t) r /\ forall i j, i < ext0 C -> j < ext1 C -> in_tri t i j ->
    fits_in prec (Z.abs (w i j) + zsum (ext1 A) (fun k => Z.abs (p i k * p j k)))%Z -> surely (r i j) (w i j + zsum (ext1 A) (fun k => p i k * p j k))%Z).
Proof.
  intros prec emax Hp He m A C t a c p w; intros. eapply wp_conseq; [apply herk_ok; eauto; try (intros; reflexivity)|]. intros [] m' [K1 _].
  eexists; split; [exact K1|]. cbv beta. intros i j Hi Hj Ht. start. xx.
Qed.
Lemma syr2k_fused : forall prec emax (Hp : FLX.Prec_gt_0 prec) (He : Prec_lt_emax prec emax) (m : mem (fma_ops prec emax Hp He)) A B C t a b c (p : nat -> nat -> Z) (u : nat -> nat -> Z) (w : nat -> nat -> Z),
  ext0 C = ext1 C -> ext0 A = ext0 C -> ext0 B = ext0 C -> ext1 B = ext1 A ->
  mat_holds m A a -> mat_holds m B b -> mat_holds_on m C (in_tri t) c -> mwritable_on C (in_tri t) ->
  disjoint (mcells A) (mcells_on C (in_tri t)) -> disjoint (mcells B) (mcells_on C (in_tri t)) ->
  (forall i j, i < ext0 A -> j < ext1 A -> surely (a i j) (p i j)) ->
  (forall i j, i < ext0 B -> j < ext1 B -> surely (b i j) (u i j)) ->
  (forall i j, i < ext0 C -> j < ext1 C -> in_tri t i j -> surely (c i j) (w i j)) ->
  succeeds (symmetric_matrix_rank_2k_update A B C t) m (fun _ m' => exists r, mat_holds_on m' C (in_tri t) r /\ forall i j, i < ext0 C -> j < ext1 C -> in_tri t i j ->
    fits_in prec (Z.abs (w i j) + zsum (ext1 A) (fun k => (Z.abs (p i k * u j k) + Z.abs (u i k * p j k))%Z))%Z -> surely (r i j) (w i j + zsum (ext1 A) (fun k => (p i k * u j k + u i k * p j k)%Z))%Z).
Proof.
  intros prec emax Hp He m A B C t a b c p u w; intros. eapply wp_conseq; [apply syr2k_ok; eauto; try (intros; reflexivity)|]. intros [] m' [K1 _].
  eexists; split; [exact K1|]. cbv beta. intros i j Hi Hj Ht. start. xx.
Qed.
Lemma her2k_fused : forall prec emax (Hp : FLX.Prec_gt_0 prec) (He : Prec_lt_emax prec emax) (m : mem (fma_ops prec emax Hp He)) A B C t a b c (p : nat -> nat -> Z) (u : nat -> nat -> Z) (w : nat -> nat -> Z),
  ext0 C = ext1 C -> ext0 A = ext0 C -> ext0 B = ext0 C -> ext1 B = ext1 A ->
  mat_holds m A a -> mat_holds m B b -> mat_holds_on m C (in_tri t) c -> mwritable_on C (in_tri t) ->
  disjoint (mcells A) (mcells_on C (in_tri t)) -> disjoint (mcells B) (mcells_on C (in_tri t)) ->
  (forall i j, i < ext0 A -> j < ext1 A -> surely (a i j) (p i j)) ->
  (forall i j, i < ext0 B -> j < ext1 B -> surely (b i j) (u i j)) ->
  (forall i j, i < ext0 C -> j < ext1 C -> in_tri t i j -> surely (c i j) (w i j)) ->
  succeeds (hermitian_matrix_rank_2k_update A B C t) m (fun _ m' => exists r, mat_holds_on m' C (in_tri t) r /\ forall i j, i < ext0 C -> j < ext1 C -> in_tri t i j ->
    fits_in prec (Z.abs (w i j) + zsum (ext1 A) (fun k => (Z.abs (p i k * u j k) + Z.abs (u i k * p j k))%Z))%Z -> surely (r i j) (w i j + zsum (ext1 A) (fun k => (p i k * u j k + u i k * p j k)%Z))%Z).
Proof.
  intros prec emax Hp He m A B C t a b c p u w; intros. eapply wp_conseq; [apply her2k_ok; eauto; try (intros; reflexivity)|]. intros [] m' [K1 _].
  eexists; split; [exact K1|]. cbv beta. intros i j Hi Hj Ht. start. xx.
Qed.

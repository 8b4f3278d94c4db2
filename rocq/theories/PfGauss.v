(** Operations on complex floating-point numbers with integer parts. *)
From Coq Require Import List Arith ZArith Reals Lia Bool.
From Flocq Require Import Core.Core IEEE754.BinarySingleNaN.
From Verif Require Import Mem Scalar View Spec SpecI SpecExact SpecGauss Ieee IeeeC Idx Wp Loops Sums Blas1 Blas2 Blas3
  PfBlas1 PfBlas2 PfRank PfBlas3 PfExactI PfGaussI.
Import ListNotations.
Local Open Scope nat_scope.

Lemma ccc : forall prec emax (Hp : FLX.Prec_gt_0 prec) (He : Prec_lt_emax prec emax) recover cdiv (v : ieee_c prec emax Hp He recover cdiv), conj (conj v) = v.
Proof. intros. destruct v as [x y]. cbn. unfold cconj; simpl. rewrite Bopp_involutive. reflexivity. Qed.
Ltac leaf := first [assumption
  | match goal with |- gauss_valued (conj _) _ => apply gconj; leaf end
  | match goal with K : forall i, _ -> gauss_valued _ _ |- gauss_valued _ _ => apply K; lia end
  | match goal with K : forall i j, _ -> _ -> gauss_valued _ _ |- gauss_valued _ _ => apply K; lia end
  | match goal with K : forall i j, _ -> _ -> _ -> gauss_valued _ _ |- gauss_valued _ _ => apply K; solve [lia | assumption] end
  | match goal with E : ext0 ?A = ext1 ?A |- gauss_valued (sym_of _ _ _ _) _ => apply gsym with (n := ext0 A); auto; try lia; intros; leaf end
  | match goal with E : ext0 ?A = ext1 ?A |- gauss_valued (herm_of _ _ _ _) _ => apply gherm with (n := ext0 A); auto; try lia; intros; leaf end].
Ltac xx := cbv beta; first [
    apply exc_big; intros; xx
  | apply exc_sum; [xx|intros; xx]
  | apply exc_mul; [leaf|leaf|first [reflexivity|symmetry; apply size_conj]|first [reflexivity|symmetry; apply size_conj]]
  | apply exc_add; xx
  | apply exc_in; leaf].
Ltac start := match goal with |- fits_in _ ?B -> gauss_valued ?r ?z => let K := fresh in intros K; cbv beta in K; refine (proj2 (_ : exc r z B) K); clear K end.

Lemma scale_gauss : forall prec emax (Hp : FLX.Prec_gt_0 prec) (He : Prec_lt_emax prec emax) recover cdiv (m : mem (ieee_c prec emax Hp He recover cdiv)) (alpha : ieee_c prec emax Hp He recover cdiv) x f (q : nat -> gauss) (al : gauss),
  vec_holds m x f -> vwritable x ->
  (forall i, i < vext x -> gauss_valued (f i) (q i)) ->
  gauss_valued alpha al ->
  succeeds (scale_1 alpha x) m (fun _ m' => exists r, vec_holds m' x r /\ forall i, i < vext x ->
    fits_in prec (size (q i) * size al)%Z -> gauss_valued (r i) ((q i * al)%sc)).
Proof.
  intros prec emax Hp He recover cdiv m alpha x f q al; intros. eapply wp_conseq; [apply scale_1_ok; eauto; try (intros; apply ccc); try discriminate|]. intros [] m' [K1 _].
  eexists; split; [exact K1|]. cbv beta. intros i Hi. start. xx.
Qed.
Lemma scale_2_gauss : forall prec emax (Hp : FLX.Prec_gt_0 prec) (He : Prec_lt_emax prec emax) recover cdiv (m : mem (ieee_c prec emax Hp He recover cdiv)) (alpha : ieee_c prec emax Hp He recover cdiv) x f (q : nat -> nat -> gauss) (al : gauss),
  mat_holds m x f -> mwritable x ->
  (forall i j, i < ext0 x -> j < ext1 x -> gauss_valued (f i j) (q i j)) ->
  gauss_valued alpha al ->
  succeeds (scale_2 alpha x) m (fun _ m' => exists r, mat_holds m' x r /\ forall i j, i < ext0 x -> j < ext1 x ->
    fits_in prec (size (q i j) * size al)%Z -> gauss_valued (r i j) ((q i j * al)%sc)).
Proof.
  intros prec emax Hp He recover cdiv m alpha x f q al; intros. eapply wp_conseq; [apply scale_2_ok; eauto; try (intros; apply ccc); try discriminate|]. intros [] m' [K1 _].
  eexists; split; [exact K1|]. cbv beta. intros i j Hi Hj. start. xx.
Qed.
Lemma add_gauss : forall prec emax (Hp : FLX.Prec_gt_0 prec) (He : Prec_lt_emax prec emax) recover cdiv (m : mem (ieee_c prec emax Hp He recover cdiv)) x y z f g (q : nat -> gauss) (s : nat -> gauss),
  vext x = vext z -> vext y = vext z -> vec_holds m x f -> vec_holds m y g ->
  vwritable z -> allocated m (vcells z) -> disjoint_or_aligned_v x z -> disjoint_or_aligned_v y z ->
  (forall i, i < vext x -> gauss_valued (f i) (q i)) ->
  (forall i, i < vext y -> gauss_valued (g i) (s i)) ->
  succeeds (add_1 x y z) m (fun _ m' => exists r, vec_holds m' z r /\ forall i, i < vext z ->
    fits_in prec (size (q i) + size (s i))%Z -> gauss_valued (r i) ((q i + s i)%sc)).
Proof.
  intros prec emax Hp He recover cdiv m x y z f g q s; intros. eapply wp_conseq; [apply add_1_ok; eauto; try (intros; apply ccc); try discriminate|]. intros [] m' [K1 _].
  eexists; split; [exact K1|]. cbv beta. intros i Hi. start. xx.
Qed.
Lemma add_2_gauss : forall prec emax (Hp : FLX.Prec_gt_0 prec) (He : Prec_lt_emax prec emax) recover cdiv (m : mem (ieee_c prec emax Hp He recover cdiv)) x y z f g (q : nat -> nat -> gauss) (s : nat -> nat -> gauss),
  ext0 x = ext0 z -> ext1 x = ext1 z -> ext0 y = ext0 z -> ext1 y = ext1 z ->
  mat_holds m x f -> mat_holds m y g ->
  mwritable z -> allocated m (mcells z) -> disjoint_or_aligned_m x z -> disjoint_or_aligned_m y z ->
  (forall i j, i < ext0 x -> j < ext1 x -> gauss_valued (f i j) (q i j)) ->
  (forall i j, i < ext0 y -> j < ext1 y -> gauss_valued (g i j) (s i j)) ->
  succeeds (add_2 x y z) m (fun _ m' => exists r, mat_holds m' z r /\ forall i j, i < ext0 z -> j < ext1 z ->
    fits_in prec (size (q i j) + size (s i j))%Z -> gauss_valued (r i j) ((q i j + s i j)%sc)).
Proof.
  intros prec emax Hp He recover cdiv m x y z f g q s; intros. eapply wp_conseq; [apply add_2_ok; eauto; try (intros; apply ccc); try discriminate|]. intros [] m' [K1 _].
  eexists; split; [exact K1|]. cbv beta. intros i j Hi Hj. start. xx.
Qed.
Lemma dot_gauss : forall prec emax (Hp : FLX.Prec_gt_0 prec) (He : Prec_lt_emax prec emax) recover cdiv (m : mem (ieee_c prec emax Hp He recover cdiv)) x y f g (init : ieee_c prec emax Hp He recover cdiv) (q : nat -> gauss) (s : nat -> gauss) (z0 : gauss),
  vext x = vext y -> vec_holds m x f -> vec_holds m y g ->
  (forall i, i < vext x -> gauss_valued (f i) (q i)) ->
  (forall i, i < vext y -> gauss_valued (g i) (s i)) ->
  gauss_valued init z0 ->
  succeeds (dot x y init) m (fun r _ => fits_in prec (size (z0) + zsum (vext x) (fun k => size (q k) * size (s k)))%Z -> gauss_valued r (sum_from (z0) 0 (vext x) (fun k => q k * s k)%sc)).
Proof.
  intros prec emax Hp He recover cdiv m x y f g init q s z0; intros. eapply wp_conseq; [apply dot_ok; eauto; try (intros; apply ccc); try discriminate|]. intros r m' [-> _]. start. xx.
Qed.
Lemma dotc_gauss : forall prec emax (Hp : FLX.Prec_gt_0 prec) (He : Prec_lt_emax prec emax) recover cdiv (m : mem (ieee_c prec emax Hp He recover cdiv)) fix_nc x y f g (init : ieee_c prec emax Hp He recover cdiv) (q : nat -> gauss) (s : nat -> gauss) (z0 : gauss),
  vext x = vext y -> vec_holds m x f -> vec_holds m y g ->
  (forall i, i < vext x -> gauss_valued (f i) (q i)) ->
  (forall i, i < vext y -> gauss_valued (g i) (s i)) ->
  gauss_valued init z0 ->
  succeeds (dotc fix_nc false x y init) m (fun r _ => fits_in prec (size (z0) + zsum (vext x) (fun k => size (q k) * size (s k)))%Z -> gauss_valued r (sum_from (z0) 0 (vext x) (fun k => conj (q k) * s k)%sc)).
Proof.
  intros prec emax Hp He recover cdiv m fix_nc x y f g init q s z0; intros. eapply wp_conseq; [apply dotc_ok; eauto; try (intros; apply ccc); try discriminate|]. intros r m' [-> _]. start. xx.
Qed.
Lemma gemv_gauss : forall prec emax (Hp : FLX.Prec_gt_0 prec) (He : Prec_lt_emax prec emax) recover cdiv (m : mem (ieee_c prec emax Hp He recover cdiv)) A x y a f (q : nat -> gauss) (p : nat -> nat -> gauss),
  vext x = ext1 A -> vext y = ext0 A ->
  mat_holds m A a -> vec_holds m x f -> vwritable y -> allocated m (vcells y) ->
  disjoint (mcells A) (vcells y) -> disjoint (vcells x) (vcells y) ->
  (forall i, i < vext x -> gauss_valued (f i) (q i)) ->
  (forall i j, i < ext0 A -> j < ext1 A -> gauss_valued (a i j) (p i j)) ->
  succeeds (matrix_vector_product A x y) m (fun _ m' => exists r, vec_holds m' y r /\ forall i, i < vext y ->
    fits_in prec (zsum (ext1 A) (fun k => size (p i k) * size (q k)))%Z -> gauss_valued (r i) (bigsum (ext1 A) (fun k => p i k * q k)%sc)).
Proof.
  intros prec emax Hp He recover cdiv m A x y a f q p; intros. eapply wp_conseq; [apply gemv_ok; eauto; try (intros; apply ccc); try discriminate|]. intros [] m' [K1 _].
  eexists; split; [exact K1|]. cbv beta. intros i Hi. start. xx.
Qed.
Lemma gemv_upd_gauss : forall prec emax (Hp : FLX.Prec_gt_0 prec) (He : Prec_lt_emax prec emax) recover cdiv (m : mem (ieee_c prec emax Hp He recover cdiv)) A x y z a f g (q : nat -> gauss) (s : nat -> gauss) (p : nat -> nat -> gauss),
  vext x = ext1 A -> vext y = ext0 A -> vext z = ext0 A ->
  mat_holds m A a -> vec_holds m x f -> vec_holds m y g -> vwritable z -> allocated m (vcells z) ->
  disjoint (mcells A) (vcells z) -> disjoint (vcells x) (vcells z) -> disjoint_or_aligned_v y z ->
  (forall i, i < vext x -> gauss_valued (f i) (q i)) ->
  (forall i, i < vext y -> gauss_valued (g i) (s i)) ->
  (forall i j, i < ext0 A -> j < ext1 A -> gauss_valued (a i j) (p i j)) ->
  succeeds (matrix_vector_product_upd A x y z) m (fun _ m' => exists r, vec_holds m' z r /\ forall i, i < vext z ->
    fits_in prec (size (s i) + zsum (ext1 A) (fun k => size (p i k) * size (q k)))%Z -> gauss_valued (r i) (sum_from (s i) 0 (ext1 A) (fun k => p i k * q k)%sc)).
Proof.
  intros prec emax Hp He recover cdiv m A x y z a f g q s p; intros. eapply wp_conseq; [apply gemv_upd_ok with (g := g); eauto; try (intros; apply ccc); try discriminate|]. intros [] m' [K1 _].
  eexists; split; [exact K1|]. cbv beta. intros i Hi. start. xx.
Qed.
Lemma symv_gauss : forall prec emax (Hp : FLX.Prec_gt_0 prec) (He : Prec_lt_emax prec emax) recover cdiv (m : mem (ieee_c prec emax Hp He recover cdiv)) A t x y a f (q : nat -> gauss) (p : nat -> nat -> gauss),
  ext0 A = ext1 A -> vext x = ext1 A -> vext y = ext0 A ->
  mat_holds_on m A (in_tri t) a -> vec_holds m x f -> vwritable y -> allocated m (vcells y) ->
  disjoint (mcells_on A (in_tri t)) (vcells y) -> disjoint (vcells x) (vcells y) ->
  (forall i, i < vext x -> gauss_valued (f i) (q i)) ->
  (forall i j, i < ext0 A -> j < ext1 A -> in_tri t i j -> gauss_valued (a i j) (p i j)) ->
  succeeds (symmetric_matrix_vector_product A t x y) m (fun _ m' => exists r, vec_holds m' y r /\ forall i, i < vext y ->
    fits_in prec (zsum (ext1 A) (fun k => size (sym_of t p i k) * size (q k)))%Z -> gauss_valued (r i) (bigsum (ext1 A) (fun k => sym_of t p i k * q k)%sc)).
Proof.
  intros prec emax Hp He recover cdiv m A t x y a f q p; intros. eapply wp_conseq; [apply symv_ok; eauto; try (intros; apply ccc); try discriminate|]. intros [] m' [K1 _].
  eexists; split; [exact K1|]. cbv beta. intros i Hi. start. xx.
Qed.
Lemma symv_upd_gauss : forall prec emax (Hp : FLX.Prec_gt_0 prec) (He : Prec_lt_emax prec emax) recover cdiv (m : mem (ieee_c prec emax Hp He recover cdiv)) A t x y z a f g (q : nat -> gauss) (s : nat -> gauss) (p : nat -> nat -> gauss),
  ext0 A = ext1 A -> vext x = ext1 A -> vext y = ext0 A -> vext z = ext0 A ->
  mat_holds_on m A (in_tri t) a -> vec_holds m x f -> vec_holds m y g -> vwritable z -> allocated m (vcells z) ->
  disjoint (mcells_on A (in_tri t)) (vcells z) -> disjoint (vcells x) (vcells z) -> disjoint_or_aligned_v y z ->
  (forall i, i < vext x -> gauss_valued (f i) (q i)) ->
  (forall i, i < vext y -> gauss_valued (g i) (s i)) ->
  (forall i j, i < ext0 A -> j < ext1 A -> in_tri t i j -> gauss_valued (a i j) (p i j)) ->
  succeeds (symmetric_matrix_vector_product_upd A t x y z) m (fun _ m' => exists r, vec_holds m' z r /\ forall i, i < vext z ->
    fits_in prec (size (s i) + zsum (ext1 A) (fun k => size (sym_of t p i k) * size (q k)))%Z -> gauss_valued (r i) (sum_from (s i) 0 (ext1 A) (fun k => sym_of t p i k * q k)%sc)).
Proof.
  intros prec emax Hp He recover cdiv m A t x y z a f g q s p; intros. eapply wp_conseq; [apply symv_upd_ok with (g := g); eauto; try (intros; apply ccc); try discriminate|]. intros [] m' [K1 _].
  eexists; split; [exact K1|]. cbv beta. intros i Hi. start. xx.
Qed.
Lemma hemv_gauss : forall prec emax (Hp : FLX.Prec_gt_0 prec) (He : Prec_lt_emax prec emax) recover cdiv (m : mem (ieee_c prec emax Hp He recover cdiv)) A t x y a f (q : nat -> gauss) (p : nat -> nat -> gauss),
  ext0 A = ext1 A -> vext x = ext1 A -> vext y = ext0 A ->
  mat_holds_on m A (in_tri t) a -> vec_holds m x f -> vwritable y -> allocated m (vcells y) ->
  disjoint (mcells_on A (in_tri t)) (vcells y) -> disjoint (vcells x) (vcells y) ->
  (forall i, i < vext x -> gauss_valued (f i) (q i)) ->
  (forall i j, i < ext0 A -> j < ext1 A -> in_tri t i j -> gauss_valued (a i j) (p i j)) ->
  succeeds (hermitian_matrix_vector_product A t x y) m (fun _ m' => exists r, vec_holds m' y r /\ forall i, i < vext y ->
    fits_in prec (zsum (ext1 A) (fun k => size (herm_of t p i k) * size (q k)))%Z -> gauss_valued (r i) (bigsum (ext1 A) (fun k => herm_of t p i k * q k)%sc)).
Proof.
  intros prec emax Hp He recover cdiv m A t x y a f q p; intros. eapply wp_conseq; [apply hemv_ok; eauto; try (intros; apply ccc); try discriminate|]. intros [] m' [K1 _].
  eexists; split; [exact K1|]. cbv beta. intros i Hi. start. xx.
Qed.
Lemma hemv_upd_gauss : forall prec emax (Hp : FLX.Prec_gt_0 prec) (He : Prec_lt_emax prec emax) recover cdiv (m : mem (ieee_c prec emax Hp He recover cdiv)) A t x y z a f g (q : nat -> gauss) (s : nat -> gauss) (p : nat -> nat -> gauss),
  ext0 A = ext1 A -> vext x = ext1 A -> vext y = ext0 A -> vext z = ext0 A ->
  mat_holds_on m A (in_tri t) a -> vec_holds m x f -> vec_holds m y g -> vwritable z -> allocated m (vcells z) ->
  disjoint (mcells_on A (in_tri t)) (vcells z) -> disjoint (vcells x) (vcells z) -> disjoint_or_aligned_v y z ->
  (forall i, i < vext x -> gauss_valued (f i) (q i)) ->
  (forall i, i < vext y -> gauss_valued (g i) (s i)) ->
  (forall i j, i < ext0 A -> j < ext1 A -> in_tri t i j -> gauss_valued (a i j) (p i j)) ->
  succeeds (hermitian_matrix_vector_product_upd A t x y z) m (fun _ m' => exists r, vec_holds m' z r /\ forall i, i < vext z ->
    fits_in prec (size (s i) + zsum (ext1 A) (fun k => size (herm_of t p i k) * size (q k)))%Z -> gauss_valued (r i) (sum_from (s i) 0 (ext1 A) (fun k => herm_of t p i k * q k)%sc)).
Proof.
  intros prec emax Hp He recover cdiv m A t x y z a f g q s p; intros. eapply wp_conseq; [apply hemv_upd_ok with (g := g); eauto; try (intros; apply ccc); try discriminate|]. intros [] m' [K1 _].
  eexists; split; [exact K1|]. cbv beta. intros i Hi. start. xx.
Qed.
Lemma ger_gauss : forall prec emax (Hp : FLX.Prec_gt_0 prec) (He : Prec_lt_emax prec emax) recover cdiv (m : mem (ieee_c prec emax Hp He recover cdiv)) x y A a f g (q : nat -> gauss) (s : nat -> gauss) (p : nat -> nat -> gauss),
  vext x = ext0 A -> vext y = ext1 A ->
  mat_holds m A a -> vec_holds m x f -> vec_holds m y g -> mwritable A ->
  disjoint (vcells x) (mcells A) -> disjoint (vcells y) (mcells A) ->
  (forall i, i < vext x -> gauss_valued (f i) (q i)) ->
  (forall i, i < vext y -> gauss_valued (g i) (s i)) ->
  (forall i j, i < ext0 A -> j < ext1 A -> gauss_valued (a i j) (p i j)) ->
  succeeds (matrix_rank_1_update x y A) m (fun _ m' => exists r, mat_holds m' A r /\ forall i j, i < ext0 A -> j < ext1 A ->
    fits_in prec (size (p i j) + size (q i) * size (s j))%Z -> gauss_valued (r i j) ((p i j + q i * s j)%sc)).
Proof.
  intros prec emax Hp He recover cdiv m x y A a f g q s p; intros. eapply wp_conseq; [apply ger_ok; eauto; try (intros; apply ccc); try discriminate|]. intros [] m' [K1 _].
  eexists; split; [exact K1|]. cbv beta. intros i j Hi Hj. start. xx.
Qed.
Lemma gerc_gauss : forall prec emax (Hp : FLX.Prec_gt_0 prec) (He : Prec_lt_emax prec emax) recover cdiv (m : mem (ieee_c prec emax Hp He recover cdiv)) fix_nc x y A a f g (q : nat -> gauss) (s : nat -> gauss) (p : nat -> nat -> gauss),
  vext x = ext0 A -> vext y = ext1 A ->
  mat_holds m A a -> vec_holds m x f -> vec_holds m y g -> mwritable A ->
  disjoint (vcells x) (mcells A) -> disjoint (vcells y) (mcells A) ->
  (forall i, i < vext x -> gauss_valued (f i) (q i)) ->
  (forall i, i < vext y -> gauss_valued (g i) (s i)) ->
  (forall i j, i < ext0 A -> j < ext1 A -> gauss_valued (a i j) (p i j)) ->
  succeeds (matrix_rank_1_update_c fix_nc false x y A) m (fun _ m' => exists r, mat_holds m' A r /\ forall i j, i < ext0 A -> j < ext1 A ->
    fits_in prec (size (p i j) + size (q i) * size (s j))%Z -> gauss_valued (r i j) ((p i j + q i * conj (s j))%sc)).
Proof.
  intros prec emax Hp He recover cdiv m fix_nc x y A a f g q s p; intros. eapply wp_conseq; [apply gerc_ok; eauto; try (intros; apply ccc); try discriminate|]. intros [] m' [K1 _].
  eexists; split; [exact K1|]. cbv beta. intros i j Hi Hj. start. xx.
Qed.
Lemma syr_gauss : forall prec emax (Hp : FLX.Prec_gt_0 prec) (He : Prec_lt_emax prec emax) recover cdiv (m : mem (ieee_c prec emax Hp He recover cdiv)) x A t a f (q : nat -> gauss) (p : nat -> nat -> gauss),
  ext0 A = ext1 A -> vext x = ext0 A ->
  mat_holds_on m A (in_tri t) a -> vec_holds m x f -> mwritable_on A (in_tri t) ->
  disjoint (vcells x) (mcells_on A (in_tri t)) ->
  (forall i, i < vext x -> gauss_valued (f i) (q i)) ->
  (forall i j, i < ext0 A -> j < ext1 A -> in_tri t i j -> gauss_valued (a i j) (p i j)) ->
  succeeds (symmetric_matrix_rank_1_update x A t) m (fun _ m' => exists r, mat_holds_on m' A (in_tri t) r /\ forall i j, i < ext0 A -> j < ext1 A -> in_tri t i j ->
    fits_in prec (size (p i j) + size (q i) * size (q j))%Z -> gauss_valued (r i j) ((p i j + q i * q j)%sc)).
Proof.
  intros prec emax Hp He recover cdiv m x A t a f q p; intros. eapply wp_conseq; [apply syr_ok; eauto; try (intros; apply ccc); try discriminate|]. intros [] m' [K1 _].
  eexists; split; [exact K1|]. cbv beta. intros i j Hi Hj Ht. start. xx.
Qed.
Lemma syr2_gauss : forall prec emax (Hp : FLX.Prec_gt_0 prec) (He : Prec_lt_emax prec emax) recover cdiv (m : mem (ieee_c prec emax Hp He recover cdiv)) x y A t a f g (q : nat -> gauss) (s : nat -> gauss) (p : nat -> nat -> gauss),
  ext0 A = ext1 A -> vext x = ext0 A -> vext y = ext0 A ->
  mat_holds_on m A (in_tri t) a -> vec_holds m x f -> vec_holds m y g -> mwritable_on A (in_tri t) ->
  disjoint (vcells x) (mcells_on A (in_tri t)) -> disjoint (vcells y) (mcells_on A (in_tri t)) ->
  (forall i, i < vext x -> gauss_valued (f i) (q i)) ->
  (forall i, i < vext y -> gauss_valued (g i) (s i)) ->
  (forall i j, i < ext0 A -> j < ext1 A -> in_tri t i j -> gauss_valued (a i j) (p i j)) ->
  succeeds (symmetric_matrix_rank_2_update x y A t) m (fun _ m' => exists r, mat_holds_on m' A (in_tri t) r /\ forall i j, i < ext0 A -> j < ext1 A -> in_tri t i j ->
    fits_in prec (size (p i j) + (size (q i) * size (s j) + size (s i) * size (q j)))%Z -> gauss_valued (r i j) ((p i j + (q i * s j + s i * q j))%sc)).
Proof.
  intros prec emax Hp He recover cdiv m x y A t a f g q s p; intros. eapply wp_conseq; [apply syr2_ok; eauto; try (intros; apply ccc); try discriminate|]. intros [] m' [K1 _].
  eexists; split; [exact K1|]. cbv beta. intros i j Hi Hj Ht. start. xx.
Qed.
Lemma her_gauss : forall prec emax (Hp : FLX.Prec_gt_0 prec) (He : Prec_lt_emax prec emax) recover cdiv (m : mem (ieee_c prec emax Hp He recover cdiv)) x A t a f (q : nat -> gauss) (p : nat -> nat -> gauss),
  ext0 A = ext1 A -> vext x = ext0 A ->
  mat_holds_on m A (in_tri t) a -> vec_holds m x f -> mwritable_on A (in_tri t) ->
  disjoint (vcells x) (mcells_on A (in_tri t)) ->
  (forall i, i < vext x -> gauss_valued (f i) (q i)) ->
  (forall i j, i < ext0 A -> j < ext1 A -> in_tri t i j -> gauss_valued (a i j) (p i j)) ->
  succeeds (hermitian_matrix_rank_1_update x A t) m (fun _ m' => exists r, mat_holds_on m' A (in_tri t) r /\ forall i j, i < ext0 A -> j < ext1 A -> in_tri t i j ->
    fits_in prec (size (herm_of t p i j) + size (q i) * size (q j))%Z -> gauss_valued (r i j) ((herm_of t p i j + q i * conj (q j))%sc)).
Proof.
  intros prec emax Hp He recover cdiv m x A t a f q p; intros. eapply wp_conseq; [apply her_ok; eauto; try (intros; apply ccc); try discriminate|]. intros [] m' [K1 _].
  eexists; split; [exact K1|]. cbv beta. intros i j Hi Hj Ht. start. xx.
Qed.
Lemma her2_gauss : forall prec emax (Hp : FLX.Prec_gt_0 prec) (He : Prec_lt_emax prec emax) recover cdiv (m : mem (ieee_c prec emax Hp He recover cdiv)) x y A t a f g (q : nat -> gauss) (s : nat -> gauss) (p : nat -> nat -> gauss),
  ext0 A = ext1 A -> vext x = ext0 A -> vext y = ext0 A ->
  mat_holds_on m A (in_tri t) a -> vec_holds m x f -> vec_holds m y g -> mwritable_on A (in_tri t) ->
  disjoint (vcells x) (mcells_on A (in_tri t)) -> disjoint (vcells y) (mcells_on A (in_tri t)) ->
  (forall i, i < vext x -> gauss_valued (f i) (q i)) ->
  (forall i, i < vext y -> gauss_valued (g i) (s i)) ->
  (forall i j, i < ext0 A -> j < ext1 A -> in_tri t i j -> gauss_valued (a i j) (p i j)) ->
  succeeds (hermitian_matrix_rank_2_update x y A t) m (fun _ m' => exists r, mat_holds_on m' A (in_tri t) r /\ forall i j, i < ext0 A -> j < ext1 A -> in_tri t i j ->
    fits_in prec (size (herm_of t p i j) + (size (q i) * size (s j) + size (s i) * size (q j)))%Z -> gauss_valued (r i j) ((herm_of t p i j + (q i * conj (s j) + s i * conj (q j)))%sc)).
Proof.
  intros prec emax Hp He recover cdiv m x y A t a f g q s p; intros. eapply wp_conseq; [apply her2_ok; eauto; try (intros; apply ccc); try discriminate|]. intros [] m' [K1 _].
  eexists; split; [exact K1|]. cbv beta. intros i j Hi Hj Ht. start. xx.
Qed.
Lemma gemm_gauss : forall prec emax (Hp : FLX.Prec_gt_0 prec) (He : Prec_lt_emax prec emax) recover cdiv (m : mem (ieee_c prec emax Hp He recover cdiv)) A B C a b (p : nat -> nat -> gauss) (u : nat -> nat -> gauss),
  ext0 C = ext0 A -> ext1 A = ext0 B -> ext1 C = ext1 B ->
  mat_holds m A a -> mat_holds m B b -> mwritable C -> allocated m (mcells C) ->
  disjoint (mcells A) (mcells C) -> disjoint (mcells B) (mcells C) ->
  (forall i j, i < ext0 A -> j < ext1 A -> gauss_valued (a i j) (p i j)) ->
  (forall i j, i < ext0 B -> j < ext1 B -> gauss_valued (b i j) (u i j)) ->
  succeeds (matrix_product A B C) m (fun _ m' => exists r, mat_holds m' C r /\ forall i j, i < ext0 C -> j < ext1 C ->
    fits_in prec (zsum (ext1 A) (fun k => size (p i k) * size (u k j)))%Z -> gauss_valued (r i j) (bigsum (ext1 A) (fun k => p i k * u k j)%sc)).
Proof.
  intros prec emax Hp He recover cdiv m A B C a b p u; intros. eapply wp_conseq; [apply gemm_ok; eauto; try (intros; apply ccc); try discriminate|]. intros [] m' [K1 _].
  eexists; split; [exact K1|]. cbv beta. intros i j Hi Hj. start. xx.
Qed.
Lemma gemm_upd_gauss : forall prec emax (Hp : FLX.Prec_gt_0 prec) (He : Prec_lt_emax prec emax) recover cdiv (m : mem (ieee_c prec emax Hp He recover cdiv)) A B E C a b e (p : nat -> nat -> gauss) (u : nat -> nat -> gauss) (w : nat -> nat -> gauss),
  ext0 C = ext0 A -> ext1 A = ext0 B -> ext1 C = ext1 B -> ext0 E = ext0 C -> ext1 E = ext1 C ->
  mat_holds m A a -> mat_holds m B b -> mat_holds m E e -> mwritable C -> allocated m (mcells C) ->
  disjoint (mcells A) (mcells C) -> disjoint (mcells B) (mcells C) -> disjoint_or_aligned_m E C ->
  (forall i j, i < ext0 A -> j < ext1 A -> gauss_valued (a i j) (p i j)) ->
  (forall i j, i < ext0 B -> j < ext1 B -> gauss_valued (b i j) (u i j)) ->
  (forall i j, i < ext0 E -> j < ext1 E -> gauss_valued (e i j) (w i j)) ->
  succeeds (matrix_product_upd A B E C) m (fun _ m' => exists r, mat_holds m' C r /\ forall i j, i < ext0 C -> j < ext1 C ->
    fits_in prec (size (w i j) + zsum (ext1 A) (fun k => size (p i k) * size (u k j)))%Z -> gauss_valued (r i j) (sum_from (w i j) 0 (ext1 A) (fun k => p i k * u k j)%sc)).
Proof.
  intros prec emax Hp He recover cdiv m A B E C a b e p u w; intros. eapply wp_conseq; [apply gemm_upd_ok with (e := e); eauto; try (intros; apply ccc); try discriminate|]. intros [] m' [K1 _].
  eexists; split; [exact K1|]. cbv beta. intros i j Hi Hj. start. xx.
Qed.
Lemma symm_left_gauss : forall prec emax (Hp : FLX.Prec_gt_0 prec) (He : Prec_lt_emax prec emax) recover cdiv (m : mem (ieee_c prec emax Hp He recover cdiv)) A t B C a b (u : nat -> nat -> gauss) (p : nat -> nat -> gauss),
  ext0 A = ext1 A -> ext0 C = ext0 A -> ext1 A = ext0 B -> ext1 C = ext1 B ->
  mat_holds_on m A (in_tri t) a -> mat_holds m B b -> mwritable C -> allocated m (mcells C) ->
  disjoint (mcells_on A (in_tri t)) (mcells C) -> disjoint (mcells B) (mcells C) ->
  (forall i j, i < ext0 B -> j < ext1 B -> gauss_valued (b i j) (u i j)) ->
  (forall i j, i < ext0 A -> j < ext1 A -> in_tri t i j -> gauss_valued (a i j) (p i j)) ->
  succeeds (symmetric_matrix_product_left A t B C) m (fun _ m' => exists r, mat_holds m' C r /\ forall i j, i < ext0 C -> j < ext1 C ->
    fits_in prec (zsum (ext1 A) (fun k => size (sym_of t p i k) * size (u k j)))%Z -> gauss_valued (r i j) (bigsum (ext1 A) (fun k => sym_of t p i k * u k j)%sc)).
Proof.
  intros prec emax Hp He recover cdiv m A t B C a b u p; intros. eapply wp_conseq; [apply symm_left_ok; eauto; try (intros; apply ccc); try discriminate|]. intros [] m' [K1 _].
  eexists; split; [exact K1|]. cbv beta. intros i j Hi Hj. start. xx.
Qed.
Lemma symm_right_gauss : forall prec emax (Hp : FLX.Prec_gt_0 prec) (He : Prec_lt_emax prec emax) recover cdiv (m : mem (ieee_c prec emax Hp He recover cdiv)) B A t C a b (u : nat -> nat -> gauss) (p : nat -> nat -> gauss),
  ext0 A = ext1 A -> ext0 C = ext0 B -> ext1 B = ext0 A -> ext1 C = ext1 A ->
  mat_holds_on m A (in_tri t) a -> mat_holds m B b -> mwritable C -> allocated m (mcells C) ->
  disjoint (mcells_on A (in_tri t)) (mcells C) -> disjoint (mcells B) (mcells C) ->
  (forall i j, i < ext0 B -> j < ext1 B -> gauss_valued (b i j) (u i j)) ->
  (forall i j, i < ext0 A -> j < ext1 A -> in_tri t i j -> gauss_valued (a i j) (p i j)) ->
  succeeds (symmetric_matrix_product_right B A t C) m (fun _ m' => exists r, mat_holds m' C r /\ forall i j, i < ext0 C -> j < ext1 C ->
    fits_in prec (zsum (ext1 A) (fun k => size (u i k) * size (sym_of t p k j)))%Z -> gauss_valued (r i j) (bigsum (ext1 A) (fun k => u i k * sym_of t p k j)%sc)).
Proof.
  intros prec emax Hp He recover cdiv m B A t C a b u p; intros. eapply wp_conseq; [apply symm_right_ok; eauto; try (intros; apply ccc); try discriminate|]. intros [] m' [K1 _].
  eexists; split; [exact K1|]. cbv beta. intros i j Hi Hj. start. xx.
Qed.
Lemma hemm_left_gauss : forall prec emax (Hp : FLX.Prec_gt_0 prec) (He : Prec_lt_emax prec emax) recover cdiv (m : mem (ieee_c prec emax Hp He recover cdiv)) A t B C a b (u : nat -> nat -> gauss) (p : nat -> nat -> gauss),
  ext0 A = ext1 A -> ext0 C = ext0 A -> ext1 A = ext0 B -> ext1 C = ext1 B ->
  mat_holds_on m A (in_tri t) a -> mat_holds m B b -> mwritable C -> allocated m (mcells C) ->
  disjoint (mcells_on A (in_tri t)) (mcells C) -> disjoint (mcells B) (mcells C) ->
  (forall i j, i < ext0 B -> j < ext1 B -> gauss_valued (b i j) (u i j)) ->
  (forall i j, i < ext0 A -> j < ext1 A -> in_tri t i j -> gauss_valued (a i j) (p i j)) ->
  succeeds (hermitian_matrix_product_left A t B C) m (fun _ m' => exists r, mat_holds m' C r /\ forall i j, i < ext0 C -> j < ext1 C ->
    fits_in prec (zsum (ext1 A) (fun k => size (herm_of t p i k) * size (u k j)))%Z -> gauss_valued (r i j) (bigsum (ext1 A) (fun k => herm_of t p i k * u k j)%sc)).
Proof.
  intros prec emax Hp He recover cdiv m A t B C a b u p; intros. eapply wp_conseq; [apply hemm_left_ok; eauto; try (intros; apply ccc); try discriminate|]. intros [] m' [K1 _].
  eexists; split; [exact K1|]. cbv beta. intros i j Hi Hj. start. xx.
Qed.
Lemma syrk_gauss : forall prec emax (Hp : FLX.Prec_gt_0 prec) (He : Prec_lt_emax prec emax) recover cdiv (m : mem (ieee_c prec emax Hp He recover cdiv)) A C t a c (p : nat -> nat -> gauss) (w : nat -> nat -> gauss),
  ext0 C = ext1 C -> ext0 A = ext0 C ->
  mat_holds m A a -> mat_holds_on m C (in_tri t) c -> mwritable_on C (in_tri t) ->
  disjoint (mcells A) (mcells_on C (in_tri t)) ->
  (forall i j, i < ext0 A -> j < ext1 A -> gauss_valued (a i j) (p i j)) ->
  (forall i j, i < ext0 C -> j < ext1 C -> in_tri t i j -> gauss_valued (c i j) (w i j)) ->
  succeeds (symmetric_matrix_rank_k_update A C t) m (fun _ m' => exists r, mat_holds_on m' C (in_tri t) r /\ forall i j, i < ext0 C -> j < ext1 C -> in_tri t i j ->
    fits_in prec (size (w i j) + zsum (ext1 A) (fun k => size (p i k) * size (p j k)))%Z -> gauss_valued (r i j) (sum_from (w i j) 0 (ext1 A) (fun k => p i k * p j k)%sc)).
Proof.
  intros prec emax Hp He recover cdiv m A C t a c p w; intros. eapply wp_conseq; [apply syrk_ok; eauto; try (intros; apply ccc); try discriminate|]. intros [] m' [K1 _].
  eexists; split; [exact K1|]. cbv beta. intros i j Hi Hj Ht. start. xx.
Qed.
Lemma herk_gauss : forall prec emax (Hp : FLX.Prec_gt_0 prec) (He : Prec_lt_emax prec emax) recover cdiv (m : mem (ieee_c prec emax Hp He recover cdiv)) A C t a c (p : nat -> nat -> gauss) (w : nat -> nat -> gauss),
  ext0 C = ext1 C -> ext0 A = ext0 C ->
  mat_holds m A a -> mat_holds_on m C (in_tri t) c -> mwritable_on C (in_tri t) ->
  disjoint (mcells A) (mcells_on C (in_tri t)) ->
  (forall i j, i < ext0 A -> j < ext1 A -> gauss_valued (a i j) (p i j)) ->
  (forall i j, i < ext0 C -> j < ext1 C -> in_tri t i j -> gauss_valued (c i j) (w i j)) ->
  succeeds (hermitian_matrix_rank_k_update A C t) m (fun _ m' => exists r, mat_holds_on m' C (in_tri t) r /\ forall i j, i < ext0 C -> j < ext1 C -> in_tri t i j ->
    fits_in prec (size (herm_of t w i j) + zsum (ext1 A) (fun k => size (p i k) * size (p j k)))%Z -> gauss_valued (r i j) (sum_from (herm_of t w i j) 0 (ext1 A) (fun k => p i k * conj (p j k))%sc)).
Proof.
  intros prec emax Hp He recover cdiv m A C t a c p w; intros. eapply wp_conseq; [apply herk_ok; eauto; try (intros; apply ccc); try discriminate|]. intros [] m' [K1 _].
  eexists; split; [exact K1|]. cbv beta. intros i j Hi Hj Ht. start. xx.
Qed.
Lemma syr2k_gauss : forall prec emax (Hp : FLX.Prec_gt_0 prec) (He : Prec_lt_emax prec emax) recover cdiv (m : mem (ieee_c prec emax Hp He recover cdiv)) A B C t a b c (p : nat -> nat -> gauss) (u : nat -> nat -> gauss) (w : nat -> nat -> gauss),
  ext0 C = ext1 C -> ext0 A = ext0 C -> ext0 B = ext0 C -> ext1 B = ext1 A ->
  mat_holds m A a -> mat_holds m B b -> mat_holds_on m C (in_tri t) c -> mwritable_on C (in_tri t) ->
  disjoint (mcells A) (mcells_on C (in_tri t)) -> disjoint (mcells B) (mcells_on C (in_tri t)) ->
  (forall i j, i < ext0 A -> j < ext1 A -> gauss_valued (a i j) (p i j)) ->
  (forall i j, i < ext0 B -> j < ext1 B -> gauss_valued (b i j) (u i j)) ->
  (forall i j, i < ext0 C -> j < ext1 C -> in_tri t i j -> gauss_valued (c i j) (w i j)) ->
  succeeds (symmetric_matrix_rank_2k_update A B C t) m (fun _ m' => exists r, mat_holds_on m' C (in_tri t) r /\ forall i j, i < ext0 C -> j < ext1 C -> in_tri t i j ->
    fits_in prec (size (w i j) + zsum (ext1 A) (fun k => size (p i k) * size (u j k) + size (u i k) * size (p j k)))%Z -> gauss_valued (r i j) (sum_from (w i j) 0 (ext1 A) (fun k => p i k * u j k + u i k * p j k)%sc)).
Proof.
  intros prec emax Hp He recover cdiv m A B C t a b c p u w; intros. eapply wp_conseq; [apply syr2k_ok; eauto; try (intros; apply ccc); try discriminate|]. intros [] m' [K1 _].
  eexists; split; [exact K1|]. cbv beta. intros i j Hi Hj Ht. start. xx.
Qed.
Lemma her2k_gauss : forall prec emax (Hp : FLX.Prec_gt_0 prec) (He : Prec_lt_emax prec emax) recover cdiv (m : mem (ieee_c prec emax Hp He recover cdiv)) A B C t a b c (p : nat -> nat -> gauss) (u : nat -> nat -> gauss) (w : nat -> nat -> gauss),
  ext0 C = ext1 C -> ext0 A = ext0 C -> ext0 B = ext0 C -> ext1 B = ext1 A ->
  mat_holds m A a -> mat_holds m B b -> mat_holds_on m C (in_tri t) c -> mwritable_on C (in_tri t) ->
  disjoint (mcells A) (mcells_on C (in_tri t)) -> disjoint (mcells B) (mcells_on C (in_tri t)) ->
  (forall i j, i < ext0 A -> j < ext1 A -> gauss_valued (a i j) (p i j)) ->
  (forall i j, i < ext0 B -> j < ext1 B -> gauss_valued (b i j) (u i j)) ->
  (forall i j, i < ext0 C -> j < ext1 C -> in_tri t i j -> gauss_valued (c i j) (w i j)) ->
  succeeds (hermitian_matrix_rank_2k_update A B C t) m (fun _ m' => exists r, mat_holds_on m' C (in_tri t) r /\ forall i j, i < ext0 C -> j < ext1 C -> in_tri t i j ->
    fits_in prec (size (herm_of t w i j) + zsum (ext1 A) (fun k => size (p i k) * size (u j k) + size (u i k) * size (p j k)))%Z -> gauss_valued (r i j) (sum_from (herm_of t w i j) 0 (ext1 A) (fun k => p i k * conj (u j k) + u i k * conj (p j k))%sc)).
Proof.
  intros prec emax Hp He recover cdiv m A B C t a b c p u w; intros. eapply wp_conseq; [apply her2k_ok; eauto; try (intros; apply ccc); try discriminate|]. intros [] m' [K1 _].
  eexists; split; [exact K1|]. cbv beta. intros i j Hi Hj Ht. start. xx.
Qed.

(** C105: where the data are integers and the sums of magnitudes of the terms have no more digits than the format, floating-point
    results are the exact integers. *)
From Coq Require Import List Arith ZArith Reals Lia Bool.
From Flocq Require Import Core.Core IEEE754.BinarySingleNaN.
From Verif Require Import Mem Scalar View Spec SpecI SpecSub SpecInp SpecExact Idx Norm Ieee Blas1 Blas2 Blas3 Wp PfExactI PfExact Inst PropFloat.
Import ListNotations.
Local Open Scope nat_scope.

(** Integers of up to [prec] digits convert to floating point exactly; *)
Theorem C105_converted : forall prec emax (Hp : FLX.Prec_gt_0 prec) (He : Prec_lt_emax prec emax) z, fits_in prec (Z.abs z) ->
  int_valued (binary_normalize prec emax Hp He mode_NE z 0 false) z.
Proof. exact norm_int. Qed.
Print Assumptions C105_converted.
(** such sums and products are exact. *)
Theorem C105_sum : forall prec emax (Hp : FLX.Prec_gt_0 prec) (He : Prec_lt_emax prec emax) (x y : binary_float prec emax) z w,
  int_valued x z -> int_valued y w -> fits_in prec (Z.abs (z + w)) -> int_valued (Bplus mode_NE x y) (z + w).
Proof. exact int_add. Qed.
Print Assumptions C105_sum.
Theorem C105_product : forall prec emax (Hp : FLX.Prec_gt_0 prec) (He : Prec_lt_emax prec emax) (x y : binary_float prec emax) z w,
  int_valued x z -> int_valued y w -> fits_in prec (Z.abs (z * w)) -> int_valued (Bmult mode_NE x y) (z * w).
Proof. exact int_mul. Qed.
Print Assumptions C105_product.
Ltac small := apply C105_converted; vm_compute; discriminate.
Example C105_converted_case : int_valued (fl (2 ^ 53) 0 : F64) (2 ^ 53).
Proof. small. Qed.
Example C105_sum_case : int_valued (Bplus mode_NE (fl (2 ^ 52) 0 : binary64) (fl (-3) 0 : binary64)) (2 ^ 52 + -3).
Proof. apply C105_sum; [small|small|vm_compute; discriminate]. Qed.
Example C105_product_case : int_valued (Bmult mode_NE (fl (2 ^ 30 - 1) 0 : binary64) (fl (-4093) 0 : binary64)) ((2 ^ 30 - 1) * -4093).
Proof. apply C105_product; [small|small|vm_compute; discriminate]. Qed.
(** Beyond the bound they are not: 2^53 + 1 rounds to 2^53. *)
Example C105_beyond : Bplus mode_NE (fl (2 ^ 53) 0 : binary64) (fl 1 0 : binary64) = fl (2 ^ 53) 0.
Proof. apply B2SF_inj. vm_compute. reflexivity. Qed.

(** Used below, in binary64: A = [2 -7; -5 3], B = [6 -1; 1 4], x = (-1, 3), y = (4, -5), w = (2, -6), C = [1 -2; 3 -4], D = 0; symmetric and
    triangular matrices are given by the lower triangle of A. *)
Definition int_mem : mem F64 := (* test data *)
  mem_of [fl (2) 0; fl (-7) 0; fl (-5) 0; fl (3) 0; fl (6) 0; fl (-1) 0; fl (1) 0; fl (4) 0; fl (-1) 0; fl (3) 0; fl (4) 0; fl (-5) 0; fl (2) 0; fl (-6) 0; fl (1) 0; fl (-2) 0; fl (3) 0; fl (-4) 0; fl 0 0; fl 0 0; fl 0 0; fl 0 0].
Definition zv (l : list Z) (i : nat) : Z := nth i l 0%Z. (* test data *)
Definition zm (l : list (list Z)) (i j : nat) : Z := nth j (nth i l []) 0%Z. (* test data *)
Ltac ints := intros; repeat match goal with K : ?k < _ |- _ => simpl in K; destruct k as [|[|k]]; [| |exfalso; clear - K; lia]; clear K end;
  first [exfalso; match goal with K : in_tri _ _ _ |- _ => simpl in K; clear - K; lia | K : stored _ _ _ _ |- _ => destruct K as [K _]; simpl in K; clear - K; lia end | small].
Ltac conc := unfold int_mem;
  match goal with
  | |- int_valued _ _ => small
  | |- symmetric_z _ => intros [|[|i]] [|[|j]]; try reflexivity; unfold zm; simpl; try destruct i; try destruct j; reflexivity
  | |- triangular_z _ _ _ => split; [intros [|[|i]] [|[|j]] K; try reflexivity; try (exfalso; apply K; simpl; lia);
        unfold zm; simpl; try destruct i; try destruct j; try reflexivity; exfalso; apply K; simpl; lia|intros; discriminate]
  | |- forall i, i < _ -> int_valued _ _ => ints
  | |- forall i j, i < _ -> j < _ -> _ => ints
  | _ => concrete; try solve [intros; reflexivity | vm_compute; split; discriminate | discriminate | intros; discriminate]
  end.

(** x = alpha x *)
Theorem C105_scale : forall prec emax (Hp : FLX.Prec_gt_0 prec) (He : Prec_lt_emax prec emax) (m : mem (ieee_ops prec emax Hp He)) (alpha : ieee_ops prec emax Hp He) x f (q : nat -> Z) (al : Z),
  vec_holds m x f -> vwritable x ->
  (forall i, i < vext x -> int_valued (f i) (q i)) ->
  int_valued alpha al ->
  succeeds (scale_1 alpha x) m (fun _ m' => exists r, vec_holds m' x r /\ forall i, i < vext x ->
    fits_in prec (Z.abs (q i * al))%Z -> int_valued (r i) (q i * al)%Z).
Proof. exact scale_exact. Qed.
Print Assumptions C105_scale.
Example C105_scale_case : succeeds (scale_1 (fl (-3) 0) (vec_at 8 2)) int_mem (fun _ m' => exists r, vec_holds m' (vec_at 8 2) r /\ int_valued (r 1 : F64) (-9)).
Proof.
  eapply wp_conseq; [apply (C105_scale 53 1024 prec53 emax1024 int_mem (fl (-3) 0) (vec_at 8 2) (fv [fl (-1) 0; fl (3) 0]) (zv [(-1)%Z; (3)%Z]) (-3)%Z); conc|].
  intros u m' (r & K1 & K2). exists r. split; [exact K1|]. apply (K2 1); [simpl; lia|vm_compute; discriminate].
Qed.

(** the same for a matrix *)
Theorem C105_scale_2 : forall prec emax (Hp : FLX.Prec_gt_0 prec) (He : Prec_lt_emax prec emax) (m : mem (ieee_ops prec emax Hp He)) (alpha : ieee_ops prec emax Hp He) x f (q : nat -> nat -> Z) (al : Z),
  mat_holds m x f -> mwritable x ->
  (forall i j, i < ext0 x -> j < ext1 x -> int_valued (f i j) (q i j)) ->
  int_valued alpha al ->
  succeeds (scale_2 alpha x) m (fun _ m' => exists r, mat_holds m' x r /\ forall i j, i < ext0 x -> j < ext1 x ->
    fits_in prec (Z.abs (q i j * al))%Z -> int_valued (r i j) (q i j * al)%Z).
Proof. exact scale_2_exact. Qed.
Print Assumptions C105_scale_2.
Example C105_scale_2_case : succeeds (scale_2 (fl (-3) 0) (row_major 4 2 2)) int_mem (fun _ m' => exists r, mat_holds m' (row_major 4 2 2) r /\ int_valued (r 1 0 : F64) (-3)).
Proof.
  eapply wp_conseq; [apply (C105_scale_2 53 1024 prec53 emax1024 int_mem (fl (-3) 0) (row_major 4 2 2) (fm [[fl (6) 0; fl (-1) 0]; [fl (1) 0; fl (4) 0]]) (zm [[(6)%Z; (-1)%Z]; [(1)%Z; (4)%Z]]) (-3)%Z); conc|].
  intros u m' (r & K1 & K2). exists r. split; [exact K1|]. apply (K2 1 0); [simpl; lia|simpl; lia|vm_compute; discriminate].
Qed.

(** z = x + y *)
Theorem C105_add : forall prec emax (Hp : FLX.Prec_gt_0 prec) (He : Prec_lt_emax prec emax) (m : mem (ieee_ops prec emax Hp He)) x y z f g (q : nat -> Z) (s : nat -> Z),
  vext x = vext z -> vext y = vext z -> vec_holds m x f -> vec_holds m y g ->
  vwritable z -> allocated m (vcells z) -> disjoint_or_aligned_v x z -> disjoint_or_aligned_v y z ->
  (forall i, i < vext x -> int_valued (f i) (q i)) ->
  (forall i, i < vext y -> int_valued (g i) (s i)) ->
  succeeds (add_1 x y z) m (fun _ m' => exists r, vec_holds m' z r /\ forall i, i < vext z ->
    fits_in prec (Z.abs (q i) + Z.abs (s i))%Z -> int_valued (r i) (q i + s i)%Z).
Proof. exact add_exact. Qed.
Print Assumptions C105_add.
Example C105_add_case : succeeds (add_1 (vec_at 8 2) (vec_at 12 2) (vec_at 10 2)) int_mem (fun _ m' => exists r, vec_holds m' (vec_at 10 2) r /\ int_valued (r 1 : F64) (-3)).
Proof.
  eapply wp_conseq; [apply (C105_add 53 1024 prec53 emax1024 int_mem (vec_at 8 2) (vec_at 12 2) (vec_at 10 2) (fv [fl (-1) 0; fl (3) 0]) (fv [fl (2) 0; fl (-6) 0]) (zv [(-1)%Z; (3)%Z]) (zv [(2)%Z; (-6)%Z])); conc|].
  intros u m' (r & K1 & K2). exists r. split; [exact K1|]. apply (K2 1); [simpl; lia|vm_compute; discriminate].
Qed.

(** the same for matrices *)
Theorem C105_add_2 : forall prec emax (Hp : FLX.Prec_gt_0 prec) (He : Prec_lt_emax prec emax) (m : mem (ieee_ops prec emax Hp He)) x y z f g (q : nat -> nat -> Z) (s : nat -> nat -> Z),
  ext0 x = ext0 z -> ext1 x = ext1 z -> ext0 y = ext0 z -> ext1 y = ext1 z ->
  mat_holds m x f -> mat_holds m y g ->
  mwritable z -> allocated m (mcells z) -> disjoint_or_aligned_m x z -> disjoint_or_aligned_m y z ->
  (forall i j, i < ext0 x -> j < ext1 x -> int_valued (f i j) (q i j)) ->
  (forall i j, i < ext0 y -> j < ext1 y -> int_valued (g i j) (s i j)) ->
  succeeds (add_2 x y z) m (fun _ m' => exists r, mat_holds m' z r /\ forall i j, i < ext0 z -> j < ext1 z ->
    fits_in prec (Z.abs (q i j) + Z.abs (s i j))%Z -> int_valued (r i j) (q i j + s i j)%Z).
Proof. exact add_2_exact. Qed.
Print Assumptions C105_add_2.
Example C105_add_2_case : succeeds (add_2 (row_major 0 2 2) (row_major 4 2 2) (row_major 14 2 2)) int_mem (fun _ m' => exists r, mat_holds m' (row_major 14 2 2) r /\ int_valued (r 1 0 : F64) (-4)).
Proof.
  eapply wp_conseq; [apply (C105_add_2 53 1024 prec53 emax1024 int_mem (row_major 0 2 2) (row_major 4 2 2) (row_major 14 2 2) (fm [[fl (2) 0; fl (-7) 0]; [fl (-5) 0; fl (3) 0]]) (fm [[fl (6) 0; fl (-1) 0]; [fl (1) 0; fl (4) 0]]) (zm [[(2)%Z; (-7)%Z]; [(-5)%Z; (3)%Z]]) (zm [[(6)%Z; (-1)%Z]; [(1)%Z; (4)%Z]])); conc|].
  intros u m' (r & K1 & K2). exists r. split; [exact K1|]. apply (K2 1 0); [simpl; lia|simpl; lia|vm_compute; discriminate].
Qed.

(** init + sum x_i y_i *)
Theorem C105_dot : forall prec emax (Hp : FLX.Prec_gt_0 prec) (He : Prec_lt_emax prec emax) (m : mem (ieee_ops prec emax Hp He)) x y f g (init : ieee_ops prec emax Hp He) (q : nat -> Z) (s : nat -> Z) (z0 : Z),
  vext x = vext y -> vec_holds m x f -> vec_holds m y g ->
  (forall i, i < vext x -> int_valued (f i) (q i)) ->
  (forall i, i < vext y -> int_valued (g i) (s i)) ->
  int_valued init z0 ->
  succeeds (dot x y init) m (fun r _ => fits_in prec (Z.abs (z0) + zsum (vext x) (fun k => Z.abs (q k * s k)))%Z -> int_valued r (z0 + zsum (vext x) (fun k => q k * s k))%Z).
Proof. exact dot_exact. Qed.
Print Assumptions C105_dot.
Example C105_dot_case : succeeds (dot (vec_at 8 2) (vec_at 12 2) (fl (-1) 0)) int_mem (fun r _ => int_valued (r : F64) (-21)).
Proof.
  eapply wp_conseq; [apply (C105_dot 53 1024 prec53 emax1024 int_mem (vec_at 8 2) (vec_at 12 2) (fv [fl (-1) 0; fl (3) 0]) (fv [fl (2) 0; fl (-6) 0]) (fl (-1) 0) (zv [(-1)%Z; (3)%Z]) (zv [(2)%Z; (-6)%Z]) (-1)%Z); conc|].
  intros r m' K. apply K. vm_compute. discriminate.
Qed.

(** init + sum conj(x_i) y_i *)
Theorem C105_dotc : forall prec emax (Hp : FLX.Prec_gt_0 prec) (He : Prec_lt_emax prec emax) (m : mem (ieee_ops prec emax Hp He)) fix_nc nc x y f g (init : ieee_ops prec emax Hp He) (q : nat -> Z) (s : nat -> Z) (z0 : Z),
  vext x = vext y -> vec_holds m x f -> vec_holds m y g ->
  (forall i, i < vext x -> int_valued (f i) (q i)) ->
  (forall i, i < vext y -> int_valued (g i) (s i)) ->
  int_valued init z0 ->
  succeeds (dotc fix_nc nc x y init) m (fun r _ => fits_in prec (Z.abs (z0) + zsum (vext x) (fun k => Z.abs (q k * s k)))%Z -> int_valued r (z0 + zsum (vext x) (fun k => q k * s k))%Z).
Proof. exact dotc_exact. Qed.
Print Assumptions C105_dotc.
Example C105_dotc_case : succeeds (dotc true true (vec_at 8 2) (vec_at 12 2) (fl (-1) 0)) int_mem (fun r _ => int_valued (r : F64) (-21)).
Proof.
  eapply wp_conseq; [apply (C105_dotc 53 1024 prec53 emax1024 int_mem true true (vec_at 8 2) (vec_at 12 2) (fv [fl (-1) 0; fl (3) 0]) (fv [fl (2) 0; fl (-6) 0]) (fl (-1) 0) (zv [(-1)%Z; (3)%Z]) (zv [(2)%Z; (-6)%Z]) (-1)%Z); conc|].
  intros r m' K. apply K. vm_compute. discriminate.
Qed.

(** y = A x *)
Theorem C105_gemv : forall prec emax (Hp : FLX.Prec_gt_0 prec) (He : Prec_lt_emax prec emax) (m : mem (ieee_ops prec emax Hp He)) A x y a f (q : nat -> Z) (p : nat -> nat -> Z),
  vext x = ext1 A -> vext y = ext0 A ->
  mat_holds m A a -> vec_holds m x f -> vwritable y -> allocated m (vcells y) ->
  disjoint (mcells A) (vcells y) -> disjoint (vcells x) (vcells y) ->
  (forall i, i < vext x -> int_valued (f i) (q i)) ->
  (forall i j, i < ext0 A -> j < ext1 A -> int_valued (a i j) (p i j)) ->
  succeeds (matrix_vector_product A x y) m (fun _ m' => exists r, vec_holds m' y r /\ forall i, i < vext y ->
    fits_in prec (zsum (ext1 A) (fun k => Z.abs (p i k * q k)))%Z -> int_valued (r i) (zsum (ext1 A) (fun k => p i k * q k))%Z).
Proof. exact gemv_exact. Qed.
Print Assumptions C105_gemv.
Example C105_gemv_case : succeeds (matrix_vector_product (row_major 0 2 2) (vec_at 8 2) (vec_at 10 2)) int_mem (fun _ m' => exists r, vec_holds m' (vec_at 10 2) r /\ int_valued (r 1 : F64) (14)).
Proof.
  eapply wp_conseq; [apply (C105_gemv 53 1024 prec53 emax1024 int_mem (row_major 0 2 2) (vec_at 8 2) (vec_at 10 2) (fm [[fl (2) 0; fl (-7) 0]; [fl (-5) 0; fl (3) 0]]) (fv [fl (-1) 0; fl (3) 0]) (zv [(-1)%Z; (3)%Z]) (zm [[(2)%Z; (-7)%Z]; [(-5)%Z; (3)%Z]])); conc|].
  intros u m' (r & K1 & K2). exists r. split; [exact K1|]. apply (K2 1); [simpl; lia|vm_compute; discriminate].
Qed.

(** z = y + A x *)
Theorem C105_gemv_upd : forall prec emax (Hp : FLX.Prec_gt_0 prec) (He : Prec_lt_emax prec emax) (m : mem (ieee_ops prec emax Hp He)) A x y z a f g (q : nat -> Z) (s : nat -> Z) (p : nat -> nat -> Z),
  vext x = ext1 A -> vext y = ext0 A -> vext z = ext0 A ->
  mat_holds m A a -> vec_holds m x f -> vec_holds m y g -> vwritable z -> allocated m (vcells z) ->
  disjoint (mcells A) (vcells z) -> disjoint (vcells x) (vcells z) -> disjoint_or_aligned_v y z ->
  (forall i, i < vext x -> int_valued (f i) (q i)) ->
  (forall i, i < vext y -> int_valued (g i) (s i)) ->
  (forall i j, i < ext0 A -> j < ext1 A -> int_valued (a i j) (p i j)) ->
  succeeds (matrix_vector_product_upd A x y z) m (fun _ m' => exists r, vec_holds m' z r /\ forall i, i < vext z ->
    fits_in prec (Z.abs (s i) + zsum (ext1 A) (fun k => Z.abs (p i k * q k)))%Z -> int_valued (r i) (s i + zsum (ext1 A) (fun k => p i k * q k))%Z).
Proof. exact gemv_upd_exact. Qed.
Print Assumptions C105_gemv_upd.
Example C105_gemv_upd_case : succeeds (matrix_vector_product_upd (row_major 0 2 2) (vec_at 8 2) (vec_at 10 2) (vec_at 12 2)) int_mem (fun _ m' => exists r, vec_holds m' (vec_at 12 2) r /\ int_valued (r 1 : F64) (9)).
Proof.
  eapply wp_conseq; [apply (C105_gemv_upd 53 1024 prec53 emax1024 int_mem (row_major 0 2 2) (vec_at 8 2) (vec_at 10 2) (vec_at 12 2) (fm [[fl (2) 0; fl (-7) 0]; [fl (-5) 0; fl (3) 0]]) (fv [fl (-1) 0; fl (3) 0]) (fv [fl (4) 0; fl (-5) 0]) (zv [(-1)%Z; (3)%Z]) (zv [(4)%Z; (-5)%Z]) (zm [[(2)%Z; (-7)%Z]; [(-5)%Z; (3)%Z]])); conc|].
  intros u m' (r & K1 & K2). exists r. split; [exact K1|]. apply (K2 1); [simpl; lia|vm_compute; discriminate].
Qed.

(** y = A x, A symmetric *)
Theorem C105_symv : forall prec emax (Hp : FLX.Prec_gt_0 prec) (He : Prec_lt_emax prec emax) (m : mem (ieee_ops prec emax Hp He)) A t x y a f (q : nat -> Z) (p : nat -> nat -> Z),
  ext0 A = ext1 A -> vext x = ext1 A -> vext y = ext0 A ->
  mat_holds_on m A (in_tri t) a -> vec_holds m x f -> vwritable y -> allocated m (vcells y) ->
  disjoint (mcells_on A (in_tri t)) (vcells y) -> disjoint (vcells x) (vcells y) ->
  (forall i, i < vext x -> int_valued (f i) (q i)) ->
  (forall i j, i < ext0 A -> j < ext1 A -> in_tri t i j -> int_valued (a i j) (p i j)) ->
  symmetric_z p ->
  succeeds (symmetric_matrix_vector_product A t x y) m (fun _ m' => exists r, vec_holds m' y r /\ forall i, i < vext y ->
    fits_in prec (zsum (ext1 A) (fun k => Z.abs (p i k * q k)))%Z -> int_valued (r i) (zsum (ext1 A) (fun k => p i k * q k))%Z).
Proof. exact symv_exact. Qed.
Print Assumptions C105_symv.
Example C105_symv_case : succeeds (symmetric_matrix_vector_product (row_major 0 2 2) Lower (vec_at 8 2) (vec_at 10 2)) int_mem (fun _ m' => exists r, vec_holds m' (vec_at 10 2) r /\ int_valued (r 1 : F64) (14)).
Proof.
  eapply wp_conseq; [apply (C105_symv 53 1024 prec53 emax1024 int_mem (row_major 0 2 2) Lower (vec_at 8 2) (vec_at 10 2) (fm [[fl (2) 0; fl (-7) 0]; [fl (-5) 0; fl (3) 0]]) (fv [fl (-1) 0; fl (3) 0]) (zv [(-1)%Z; (3)%Z]) (zm [[(2)%Z; (-5)%Z]; [(-5)%Z; (3)%Z]])); conc|].
  intros u m' (r & K1 & K2). exists r. split; [exact K1|]. apply (K2 1); [simpl; lia|vm_compute; discriminate].
Qed.

(** z = y + A x, A symmetric *)
Theorem C105_symv_upd : forall prec emax (Hp : FLX.Prec_gt_0 prec) (He : Prec_lt_emax prec emax) (m : mem (ieee_ops prec emax Hp He)) A t x y z a f g (q : nat -> Z) (s : nat -> Z) (p : nat -> nat -> Z),
  ext0 A = ext1 A -> vext x = ext1 A -> vext y = ext0 A -> vext z = ext0 A ->
  mat_holds_on m A (in_tri t) a -> vec_holds m x f -> vec_holds m y g -> vwritable z -> allocated m (vcells z) ->
  disjoint (mcells_on A (in_tri t)) (vcells z) -> disjoint (vcells x) (vcells z) -> disjoint_or_aligned_v y z ->
  (forall i, i < vext x -> int_valued (f i) (q i)) ->
  (forall i, i < vext y -> int_valued (g i) (s i)) ->
  (forall i j, i < ext0 A -> j < ext1 A -> in_tri t i j -> int_valued (a i j) (p i j)) ->
  symmetric_z p ->
  succeeds (symmetric_matrix_vector_product_upd A t x y z) m (fun _ m' => exists r, vec_holds m' z r /\ forall i, i < vext z ->
    fits_in prec (Z.abs (s i) + zsum (ext1 A) (fun k => Z.abs (p i k * q k)))%Z -> int_valued (r i) (s i + zsum (ext1 A) (fun k => p i k * q k))%Z).
Proof. exact symv_upd_exact. Qed.
Print Assumptions C105_symv_upd.
Example C105_symv_upd_case : succeeds (symmetric_matrix_vector_product_upd (row_major 0 2 2) Lower (vec_at 8 2) (vec_at 10 2) (vec_at 12 2)) int_mem (fun _ m' => exists r, vec_holds m' (vec_at 12 2) r /\ int_valued (r 1 : F64) (9)).
Proof.
  eapply wp_conseq; [apply (C105_symv_upd 53 1024 prec53 emax1024 int_mem (row_major 0 2 2) Lower (vec_at 8 2) (vec_at 10 2) (vec_at 12 2) (fm [[fl (2) 0; fl (-7) 0]; [fl (-5) 0; fl (3) 0]]) (fv [fl (-1) 0; fl (3) 0]) (fv [fl (4) 0; fl (-5) 0]) (zv [(-1)%Z; (3)%Z]) (zv [(4)%Z; (-5)%Z]) (zm [[(2)%Z; (-5)%Z]; [(-5)%Z; (3)%Z]])); conc|].
  intros u m' (r & K1 & K2). exists r. split; [exact K1|]. apply (K2 1); [simpl; lia|vm_compute; discriminate].
Qed.

(** y = A x, A Hermitian *)
Theorem C105_hemv : forall prec emax (Hp : FLX.Prec_gt_0 prec) (He : Prec_lt_emax prec emax) (m : mem (ieee_ops prec emax Hp He)) A t x y a f (q : nat -> Z) (p : nat -> nat -> Z),
  ext0 A = ext1 A -> vext x = ext1 A -> vext y = ext0 A ->
  mat_holds_on m A (in_tri t) a -> vec_holds m x f -> vwritable y -> allocated m (vcells y) ->
  disjoint (mcells_on A (in_tri t)) (vcells y) -> disjoint (vcells x) (vcells y) ->
  (forall i, i < vext x -> int_valued (f i) (q i)) ->
  (forall i j, i < ext0 A -> j < ext1 A -> in_tri t i j -> int_valued (a i j) (p i j)) ->
  symmetric_z p ->
  succeeds (hermitian_matrix_vector_product A t x y) m (fun _ m' => exists r, vec_holds m' y r /\ forall i, i < vext y ->
    fits_in prec (zsum (ext1 A) (fun k => Z.abs (p i k * q k)))%Z -> int_valued (r i) (zsum (ext1 A) (fun k => p i k * q k))%Z).
Proof. exact hemv_exact. Qed.
Print Assumptions C105_hemv.
Example C105_hemv_case : succeeds (hermitian_matrix_vector_product (row_major 0 2 2) Lower (vec_at 8 2) (vec_at 10 2)) int_mem (fun _ m' => exists r, vec_holds m' (vec_at 10 2) r /\ int_valued (r 1 : F64) (14)).
Proof.
  eapply wp_conseq; [apply (C105_hemv 53 1024 prec53 emax1024 int_mem (row_major 0 2 2) Lower (vec_at 8 2) (vec_at 10 2) (fm [[fl (2) 0; fl (-7) 0]; [fl (-5) 0; fl (3) 0]]) (fv [fl (-1) 0; fl (3) 0]) (zv [(-1)%Z; (3)%Z]) (zm [[(2)%Z; (-5)%Z]; [(-5)%Z; (3)%Z]])); conc|].
  intros u m' (r & K1 & K2). exists r. split; [exact K1|]. apply (K2 1); [simpl; lia|vm_compute; discriminate].
Qed.

(** z = y + A x, A Hermitian *)
Theorem C105_hemv_upd : forall prec emax (Hp : FLX.Prec_gt_0 prec) (He : Prec_lt_emax prec emax) (m : mem (ieee_ops prec emax Hp He)) A t x y z a f g (q : nat -> Z) (s : nat -> Z) (p : nat -> nat -> Z),
  ext0 A = ext1 A -> vext x = ext1 A -> vext y = ext0 A -> vext z = ext0 A ->
  mat_holds_on m A (in_tri t) a -> vec_holds m x f -> vec_holds m y g -> vwritable z -> allocated m (vcells z) ->
  disjoint (mcells_on A (in_tri t)) (vcells z) -> disjoint (vcells x) (vcells z) -> disjoint_or_aligned_v y z ->
  (forall i, i < vext x -> int_valued (f i) (q i)) ->
  (forall i, i < vext y -> int_valued (g i) (s i)) ->
  (forall i j, i < ext0 A -> j < ext1 A -> in_tri t i j -> int_valued (a i j) (p i j)) ->
  symmetric_z p ->
  succeeds (hermitian_matrix_vector_product_upd A t x y z) m (fun _ m' => exists r, vec_holds m' z r /\ forall i, i < vext z ->
    fits_in prec (Z.abs (s i) + zsum (ext1 A) (fun k => Z.abs (p i k * q k)))%Z -> int_valued (r i) (s i + zsum (ext1 A) (fun k => p i k * q k))%Z).
Proof. exact hemv_upd_exact. Qed.
Print Assumptions C105_hemv_upd.
Example C105_hemv_upd_case : succeeds (hermitian_matrix_vector_product_upd (row_major 0 2 2) Lower (vec_at 8 2) (vec_at 10 2) (vec_at 12 2)) int_mem (fun _ m' => exists r, vec_holds m' (vec_at 12 2) r /\ int_valued (r 1 : F64) (9)).
Proof.
  eapply wp_conseq; [apply (C105_hemv_upd 53 1024 prec53 emax1024 int_mem (row_major 0 2 2) Lower (vec_at 8 2) (vec_at 10 2) (vec_at 12 2) (fm [[fl (2) 0; fl (-7) 0]; [fl (-5) 0; fl (3) 0]]) (fv [fl (-1) 0; fl (3) 0]) (fv [fl (4) 0; fl (-5) 0]) (zv [(-1)%Z; (3)%Z]) (zv [(4)%Z; (-5)%Z]) (zm [[(2)%Z; (-5)%Z]; [(-5)%Z; (3)%Z]])); conc|].
  intros u m' (r & K1 & K2). exists r. split; [exact K1|]. apply (K2 1); [simpl; lia|vm_compute; discriminate].
Qed.

(** y = A x, A triangular *)
Theorem C105_trmv : forall prec emax (Hp : FLX.Prec_gt_0 prec) (He : Prec_lt_emax prec emax) (m : mem (ieee_ops prec emax Hp He)) A t d x y a f (q : nat -> Z) (p : nat -> nat -> Z),
  ext0 A = ext1 A -> vext x = ext1 A -> vext y = ext0 A ->
  mat_holds_on m A (stored t d) a -> vec_holds m x f -> vwritable y -> allocated m (vcells y) ->
  disjoint (mcells_on A (stored t d)) (vcells y) -> disjoint (vcells x) (vcells y) ->
  (forall i, i < vext x -> int_valued (f i) (q i)) ->
  (forall i j, i < ext0 A -> j < ext1 A -> stored t d i j -> int_valued (a i j) (p i j)) ->
  triangular_z t d p ->
  succeeds (triangular_matrix_vector_product A t d x y) m (fun _ m' => exists r, vec_holds m' y r /\ forall i, i < vext y ->
    fits_in prec (zsum (ext1 A) (fun k => Z.abs (p i k * q k)))%Z -> int_valued (r i) (zsum (ext1 A) (fun k => p i k * q k))%Z).
Proof. exact trmv_exact. Qed.
Print Assumptions C105_trmv.
Example C105_trmv_case : succeeds (triangular_matrix_vector_product (row_major 0 2 2) Lower Explicit (vec_at 8 2) (vec_at 10 2)) int_mem (fun _ m' => exists r, vec_holds m' (vec_at 10 2) r /\ int_valued (r 1 : F64) (14)).
Proof.
  eapply wp_conseq; [apply (C105_trmv 53 1024 prec53 emax1024 int_mem (row_major 0 2 2) Lower Explicit (vec_at 8 2) (vec_at 10 2) (fm [[fl (2) 0; fl (-7) 0]; [fl (-5) 0; fl (3) 0]]) (fv [fl (-1) 0; fl (3) 0]) (zv [(-1)%Z; (3)%Z]) (zm [[(2)%Z; (0)%Z]; [(-5)%Z; (3)%Z]])); conc|].
  intros u m' (r & K1 & K2). exists r. split; [exact K1|]. apply (K2 1); [simpl; lia|vm_compute; discriminate].
Qed.

(** z = y + A x, A triangular *)
Theorem C105_trmv_upd : forall prec emax (Hp : FLX.Prec_gt_0 prec) (He : Prec_lt_emax prec emax) (m : mem (ieee_ops prec emax Hp He)) A t d x y z a f g (q : nat -> Z) (s : nat -> Z) (p : nat -> nat -> Z),
  ext0 A = ext1 A -> vext x = ext1 A -> vext y = ext0 A -> vext z = ext0 A ->
  mat_holds_on m A (stored t d) a -> vec_holds m x f -> vec_holds m y g -> vwritable z -> allocated m (vcells z) ->
  disjoint (mcells_on A (stored t d)) (vcells z) -> disjoint (vcells x) (vcells z) -> disjoint_or_aligned_v y z ->
  (forall i, i < vext x -> int_valued (f i) (q i)) ->
  (forall i, i < vext y -> int_valued (g i) (s i)) ->
  (forall i j, i < ext0 A -> j < ext1 A -> stored t d i j -> int_valued (a i j) (p i j)) ->
  triangular_z t d p ->
  succeeds (triangular_matrix_vector_product_upd A t d x y z) m (fun _ m' => exists r, vec_holds m' z r /\ forall i, i < vext z ->
    fits_in prec (Z.abs (s i) + zsum (ext1 A) (fun k => Z.abs (p i k * q k)))%Z -> int_valued (r i) (s i + zsum (ext1 A) (fun k => p i k * q k))%Z).
Proof. exact trmv_upd_exact. Qed.
Print Assumptions C105_trmv_upd.
Example C105_trmv_upd_case : succeeds (triangular_matrix_vector_product_upd (row_major 0 2 2) Lower Explicit (vec_at 8 2) (vec_at 10 2) (vec_at 12 2)) int_mem (fun _ m' => exists r, vec_holds m' (vec_at 12 2) r /\ int_valued (r 1 : F64) (9)).
Proof.
  eapply wp_conseq; [apply (C105_trmv_upd 53 1024 prec53 emax1024 int_mem (row_major 0 2 2) Lower Explicit (vec_at 8 2) (vec_at 10 2) (vec_at 12 2) (fm [[fl (2) 0; fl (-7) 0]; [fl (-5) 0; fl (3) 0]]) (fv [fl (-1) 0; fl (3) 0]) (fv [fl (4) 0; fl (-5) 0]) (zv [(-1)%Z; (3)%Z]) (zv [(4)%Z; (-5)%Z]) (zm [[(2)%Z; (0)%Z]; [(-5)%Z; (3)%Z]])); conc|].
  intros u m' (r & K1 & K2). exists r. split; [exact K1|]. apply (K2 1); [simpl; lia|vm_compute; discriminate].
Qed.

(** y = A y, A triangular *)
Theorem C105_trmv_inplace : forall prec emax (Hp : FLX.Prec_gt_0 prec) (He : Prec_lt_emax prec emax) (m : mem (ieee_ops prec emax Hp He)) A t d y a f (q : nat -> Z) (p : nat -> nat -> Z),
  ext0 A = ext1 A -> vext y = ext0 A ->
  mat_holds_on m A (stored t d) a -> vec_holds m y f -> vwritable y ->
  disjoint (mcells_on A (stored t d)) (vcells y) ->
  (forall i, i < vext y -> int_valued (f i) (q i)) ->
  (forall i j, i < ext0 A -> j < ext1 A -> stored t d i j -> int_valued (a i j) (p i j)) ->
  triangular_z t d p ->
  succeeds (triangular_matrix_vector_product_inplace A t d y) m (fun _ m' => exists r, vec_holds m' y r /\ forall i, i < vext y ->
    fits_in prec (zsum (ext1 A) (fun k => Z.abs (p i k * q k)))%Z -> int_valued (r i) (zsum (ext1 A) (fun k => p i k * q k))%Z).
Proof. exact trmv_inplace_exact. Qed.
Print Assumptions C105_trmv_inplace.
Example C105_trmv_inplace_case : succeeds (triangular_matrix_vector_product_inplace (row_major 0 2 2) Lower Explicit (vec_at 8 2)) int_mem (fun _ m' => exists r, vec_holds m' (vec_at 8 2) r /\ int_valued (r 1 : F64) (14)).
Proof.
  eapply wp_conseq; [apply (C105_trmv_inplace 53 1024 prec53 emax1024 int_mem (row_major 0 2 2) Lower Explicit (vec_at 8 2) (fm [[fl (2) 0; fl (-7) 0]; [fl (-5) 0; fl (3) 0]]) (fv [fl (-1) 0; fl (3) 0]) (zv [(-1)%Z; (3)%Z]) (zm [[(2)%Z; (0)%Z]; [(-5)%Z; (3)%Z]])); conc|].
  intros u m' (r & K1 & K2). exists r. split; [exact K1|]. apply (K2 1); [simpl; lia|vm_compute; discriminate].
Qed.

(** A += x y^T *)
Theorem C105_ger : forall prec emax (Hp : FLX.Prec_gt_0 prec) (He : Prec_lt_emax prec emax) (m : mem (ieee_ops prec emax Hp He)) x y A a f g (q : nat -> Z) (s : nat -> Z) (p : nat -> nat -> Z),
  vext x = ext0 A -> vext y = ext1 A ->
  mat_holds m A a -> vec_holds m x f -> vec_holds m y g -> mwritable A ->
  disjoint (vcells x) (mcells A) -> disjoint (vcells y) (mcells A) ->
  (forall i, i < vext x -> int_valued (f i) (q i)) ->
  (forall i, i < vext y -> int_valued (g i) (s i)) ->
  (forall i j, i < ext0 A -> j < ext1 A -> int_valued (a i j) (p i j)) ->
  succeeds (matrix_rank_1_update x y A) m (fun _ m' => exists r, mat_holds m' A r /\ forall i j, i < ext0 A -> j < ext1 A ->
    fits_in prec (Z.abs (p i j) + Z.abs (q i * s j))%Z -> int_valued (r i j) (p i j + q i * s j)%Z).
Proof. exact ger_exact. Qed.
Print Assumptions C105_ger.
Example C105_ger_case : succeeds (matrix_rank_1_update (vec_at 8 2) (vec_at 12 2) (row_major 14 2 2)) int_mem (fun _ m' => exists r, mat_holds m' (row_major 14 2 2) r /\ int_valued (r 1 0 : F64) (9)).
Proof.
  eapply wp_conseq; [apply (C105_ger 53 1024 prec53 emax1024 int_mem (vec_at 8 2) (vec_at 12 2) (row_major 14 2 2) (fm [[fl (1) 0; fl (-2) 0]; [fl (3) 0; fl (-4) 0]]) (fv [fl (-1) 0; fl (3) 0]) (fv [fl (2) 0; fl (-6) 0]) (zv [(-1)%Z; (3)%Z]) (zv [(2)%Z; (-6)%Z]) (zm [[(1)%Z; (-2)%Z]; [(3)%Z; (-4)%Z]])); conc|].
  intros u m' (r & K1 & K2). exists r. split; [exact K1|]. apply (K2 1 0); [simpl; lia|simpl; lia|vm_compute; discriminate].
Qed.

(** A += x y^H *)
Theorem C105_gerc : forall prec emax (Hp : FLX.Prec_gt_0 prec) (He : Prec_lt_emax prec emax) (m : mem (ieee_ops prec emax Hp He)) fix_nc nc x y A a f g (q : nat -> Z) (s : nat -> Z) (p : nat -> nat -> Z),
  vext x = ext0 A -> vext y = ext1 A ->
  mat_holds m A a -> vec_holds m x f -> vec_holds m y g -> mwritable A ->
  disjoint (vcells x) (mcells A) -> disjoint (vcells y) (mcells A) ->
  (forall i, i < vext x -> int_valued (f i) (q i)) ->
  (forall i, i < vext y -> int_valued (g i) (s i)) ->
  (forall i j, i < ext0 A -> j < ext1 A -> int_valued (a i j) (p i j)) ->
  succeeds (matrix_rank_1_update_c fix_nc nc x y A) m (fun _ m' => exists r, mat_holds m' A r /\ forall i j, i < ext0 A -> j < ext1 A ->
    fits_in prec (Z.abs (p i j) + Z.abs (q i * s j))%Z -> int_valued (r i j) (p i j + q i * s j)%Z).
Proof. exact gerc_exact. Qed.
Print Assumptions C105_gerc.
Example C105_gerc_case : succeeds (matrix_rank_1_update_c true true (vec_at 8 2) (vec_at 12 2) (row_major 14 2 2)) int_mem (fun _ m' => exists r, mat_holds m' (row_major 14 2 2) r /\ int_valued (r 1 0 : F64) (9)).
Proof.
  eapply wp_conseq; [apply (C105_gerc 53 1024 prec53 emax1024 int_mem true true (vec_at 8 2) (vec_at 12 2) (row_major 14 2 2) (fm [[fl (1) 0; fl (-2) 0]; [fl (3) 0; fl (-4) 0]]) (fv [fl (-1) 0; fl (3) 0]) (fv [fl (2) 0; fl (-6) 0]) (zv [(-1)%Z; (3)%Z]) (zv [(2)%Z; (-6)%Z]) (zm [[(1)%Z; (-2)%Z]; [(3)%Z; (-4)%Z]])); conc|].
  intros u m' (r & K1 & K2). exists r. split; [exact K1|]. apply (K2 1 0); [simpl; lia|simpl; lia|vm_compute; discriminate].
Qed.

(** A += x x^T on one triangle *)
Theorem C105_syr : forall prec emax (Hp : FLX.Prec_gt_0 prec) (He : Prec_lt_emax prec emax) (m : mem (ieee_ops prec emax Hp He)) x A t a f (q : nat -> Z) (p : nat -> nat -> Z),
  ext0 A = ext1 A -> vext x = ext0 A ->
  mat_holds_on m A (in_tri t) a -> vec_holds m x f -> mwritable_on A (in_tri t) ->
  disjoint (vcells x) (mcells_on A (in_tri t)) ->
  (forall i, i < vext x -> int_valued (f i) (q i)) ->
  (forall i j, i < ext0 A -> j < ext1 A -> in_tri t i j -> int_valued (a i j) (p i j)) ->
  succeeds (symmetric_matrix_rank_1_update x A t) m (fun _ m' => exists r, mat_holds_on m' A (in_tri t) r /\ forall i j, i < ext0 A -> j < ext1 A -> in_tri t i j ->
    fits_in prec (Z.abs (p i j) + Z.abs (q i * q j))%Z -> int_valued (r i j) (p i j + q i * q j)%Z).
Proof. exact syr_exact. Qed.
Print Assumptions C105_syr.
Example C105_syr_case : succeeds (symmetric_matrix_rank_1_update (vec_at 12 2) (row_major 14 2 2) Lower) int_mem (fun _ m' => exists r, mat_holds_on m' (row_major 14 2 2) (in_tri Lower) r /\ int_valued (r 1 0 : F64) (-9)).
Proof.
  eapply wp_conseq; [apply (C105_syr 53 1024 prec53 emax1024 int_mem (vec_at 12 2) (row_major 14 2 2) Lower (fm [[fl (1) 0; fl (-2) 0]; [fl (3) 0; fl (-4) 0]]) (fv [fl (2) 0; fl (-6) 0]) (zv [(2)%Z; (-6)%Z]) (zm [[(1)%Z; (-2)%Z]; [(3)%Z; (-4)%Z]])); conc|].
  intros u m' (r & K1 & K2). exists r. split; [exact K1|]. apply (K2 1 0); [simpl; lia|simpl; lia|simpl; lia|vm_compute; discriminate].
Qed.

(** A += x y^T + y x^T on one triangle *)
Theorem C105_syr2 : forall prec emax (Hp : FLX.Prec_gt_0 prec) (He : Prec_lt_emax prec emax) (m : mem (ieee_ops prec emax Hp He)) x y A t a f g (q : nat -> Z) (s : nat -> Z) (p : nat -> nat -> Z),
  ext0 A = ext1 A -> vext x = ext0 A -> vext y = ext0 A ->
  mat_holds_on m A (in_tri t) a -> vec_holds m x f -> vec_holds m y g -> mwritable_on A (in_tri t) ->
  disjoint (vcells x) (mcells_on A (in_tri t)) -> disjoint (vcells y) (mcells_on A (in_tri t)) ->
  (forall i, i < vext x -> int_valued (f i) (q i)) ->
  (forall i, i < vext y -> int_valued (g i) (s i)) ->
  (forall i j, i < ext0 A -> j < ext1 A -> in_tri t i j -> int_valued (a i j) (p i j)) ->
  succeeds (symmetric_matrix_rank_2_update x y A t) m (fun _ m' => exists r, mat_holds_on m' A (in_tri t) r /\ forall i j, i < ext0 A -> j < ext1 A -> in_tri t i j ->
    fits_in prec (Z.abs (p i j) + (Z.abs (q i * s j) + Z.abs (s i * q j)))%Z -> int_valued (r i j) (p i j + (q i * s j + s i * q j))%Z).
Proof. exact syr2_exact. Qed.
Print Assumptions C105_syr2.
Example C105_syr2_case : succeeds (symmetric_matrix_rank_2_update (vec_at 8 2) (vec_at 12 2) (row_major 14 2 2) Lower) int_mem (fun _ m' => exists r, mat_holds_on m' (row_major 14 2 2) (in_tri Lower) r /\ int_valued (r 1 0 : F64) (15)).
Proof.
  eapply wp_conseq; [apply (C105_syr2 53 1024 prec53 emax1024 int_mem (vec_at 8 2) (vec_at 12 2) (row_major 14 2 2) Lower (fm [[fl (1) 0; fl (-2) 0]; [fl (3) 0; fl (-4) 0]]) (fv [fl (-1) 0; fl (3) 0]) (fv [fl (2) 0; fl (-6) 0]) (zv [(-1)%Z; (3)%Z]) (zv [(2)%Z; (-6)%Z]) (zm [[(1)%Z; (-2)%Z]; [(3)%Z; (-4)%Z]])); conc|].
  intros u m' (r & K1 & K2). exists r. split; [exact K1|]. apply (K2 1 0); [simpl; lia|simpl; lia|simpl; lia|vm_compute; discriminate].
Qed.

(** A += x x^H on one triangle *)
Theorem C105_her : forall prec emax (Hp : FLX.Prec_gt_0 prec) (He : Prec_lt_emax prec emax) (m : mem (ieee_ops prec emax Hp He)) x A t a f (q : nat -> Z) (p : nat -> nat -> Z),
  ext0 A = ext1 A -> vext x = ext0 A ->
  mat_holds_on m A (in_tri t) a -> vec_holds m x f -> mwritable_on A (in_tri t) ->
  disjoint (vcells x) (mcells_on A (in_tri t)) ->
  (forall i, i < vext x -> int_valued (f i) (q i)) ->
  (forall i j, i < ext0 A -> j < ext1 A -> in_tri t i j -> int_valued (a i j) (p i j)) ->
  succeeds (hermitian_matrix_rank_1_update x A t) m (fun _ m' => exists r, mat_holds_on m' A (in_tri t) r /\ forall i j, i < ext0 A -> j < ext1 A -> in_tri t i j ->
    fits_in prec (Z.abs (p i j) + Z.abs (q i * q j))%Z -> int_valued (r i j) (p i j + q i * q j)%Z).
Proof. exact her_exact. Qed.
Print Assumptions C105_her.
Example C105_her_case : succeeds (hermitian_matrix_rank_1_update (vec_at 12 2) (row_major 14 2 2) Lower) int_mem (fun _ m' => exists r, mat_holds_on m' (row_major 14 2 2) (in_tri Lower) r /\ int_valued (r 1 0 : F64) (-9)).
Proof.
  eapply wp_conseq; [apply (C105_her 53 1024 prec53 emax1024 int_mem (vec_at 12 2) (row_major 14 2 2) Lower (fm [[fl (1) 0; fl (-2) 0]; [fl (3) 0; fl (-4) 0]]) (fv [fl (2) 0; fl (-6) 0]) (zv [(2)%Z; (-6)%Z]) (zm [[(1)%Z; (-2)%Z]; [(3)%Z; (-4)%Z]])); conc|].
  intros u m' (r & K1 & K2). exists r. split; [exact K1|]. apply (K2 1 0); [simpl; lia|simpl; lia|simpl; lia|vm_compute; discriminate].
Qed.

(** A += x y^H + y x^H on one triangle *)
Theorem C105_her2 : forall prec emax (Hp : FLX.Prec_gt_0 prec) (He : Prec_lt_emax prec emax) (m : mem (ieee_ops prec emax Hp He)) x y A t a f g (q : nat -> Z) (s : nat -> Z) (p : nat -> nat -> Z),
  ext0 A = ext1 A -> vext x = ext0 A -> vext y = ext0 A ->
  mat_holds_on m A (in_tri t) a -> vec_holds m x f -> vec_holds m y g -> mwritable_on A (in_tri t) ->
  disjoint (vcells x) (mcells_on A (in_tri t)) -> disjoint (vcells y) (mcells_on A (in_tri t)) ->
  (forall i, i < vext x -> int_valued (f i) (q i)) ->
  (forall i, i < vext y -> int_valued (g i) (s i)) ->
  (forall i j, i < ext0 A -> j < ext1 A -> in_tri t i j -> int_valued (a i j) (p i j)) ->
  succeeds (hermitian_matrix_rank_2_update x y A t) m (fun _ m' => exists r, mat_holds_on m' A (in_tri t) r /\ forall i j, i < ext0 A -> j < ext1 A -> in_tri t i j ->
    fits_in prec (Z.abs (p i j) + (Z.abs (q i * s j) + Z.abs (s i * q j)))%Z -> int_valued (r i j) (p i j + (q i * s j + s i * q j))%Z).
Proof. exact her2_exact. Qed.
Print Assumptions C105_her2.
Example C105_her2_case : succeeds (hermitian_matrix_rank_2_update (vec_at 8 2) (vec_at 12 2) (row_major 14 2 2) Lower) int_mem (fun _ m' => exists r, mat_holds_on m' (row_major 14 2 2) (in_tri Lower) r /\ int_valued (r 1 0 : F64) (15)).
Proof.
  eapply wp_conseq; [apply (C105_her2 53 1024 prec53 emax1024 int_mem (vec_at 8 2) (vec_at 12 2) (row_major 14 2 2) Lower (fm [[fl (1) 0; fl (-2) 0]; [fl (3) 0; fl (-4) 0]]) (fv [fl (-1) 0; fl (3) 0]) (fv [fl (2) 0; fl (-6) 0]) (zv [(-1)%Z; (3)%Z]) (zv [(2)%Z; (-6)%Z]) (zm [[(1)%Z; (-2)%Z]; [(3)%Z; (-4)%Z]])); conc|].
  intros u m' (r & K1 & K2). exists r. split; [exact K1|]. apply (K2 1 0); [simpl; lia|simpl; lia|simpl; lia|vm_compute; discriminate].
Qed.

(** C = A B *)
Theorem C105_gemm : forall prec emax (Hp : FLX.Prec_gt_0 prec) (He : Prec_lt_emax prec emax) (m : mem (ieee_ops prec emax Hp He)) A B C a b (p : nat -> nat -> Z) (u : nat -> nat -> Z),
  ext0 C = ext0 A -> ext1 A = ext0 B -> ext1 C = ext1 B ->
  mat_holds m A a -> mat_holds m B b -> mwritable C -> allocated m (mcells C) ->
  disjoint (mcells A) (mcells C) -> disjoint (mcells B) (mcells C) ->
  (forall i j, i < ext0 A -> j < ext1 A -> int_valued (a i j) (p i j)) ->
  (forall i j, i < ext0 B -> j < ext1 B -> int_valued (b i j) (u i j)) ->
  succeeds (matrix_product A B C) m (fun _ m' => exists r, mat_holds m' C r /\ forall i j, i < ext0 C -> j < ext1 C ->
    fits_in prec (zsum (ext1 A) (fun k => Z.abs (p i k * u k j)))%Z -> int_valued (r i j) (zsum (ext1 A) (fun k => p i k * u k j))%Z).
Proof. exact gemm_exact. Qed.
Print Assumptions C105_gemm.
Example C105_gemm_case : succeeds (matrix_product (row_major 0 2 2) (row_major 4 2 2) (row_major 14 2 2)) int_mem (fun _ m' => exists r, mat_holds m' (row_major 14 2 2) r /\ int_valued (r 1 0 : F64) (-27)).
Proof.
  eapply wp_conseq; [apply (C105_gemm 53 1024 prec53 emax1024 int_mem (row_major 0 2 2) (row_major 4 2 2) (row_major 14 2 2) (fm [[fl (2) 0; fl (-7) 0]; [fl (-5) 0; fl (3) 0]]) (fm [[fl (6) 0; fl (-1) 0]; [fl (1) 0; fl (4) 0]]) (zm [[(2)%Z; (-7)%Z]; [(-5)%Z; (3)%Z]]) (zm [[(6)%Z; (-1)%Z]; [(1)%Z; (4)%Z]])); conc|].
  intros u m' (r & K1 & K2). exists r. split; [exact K1|]. apply (K2 1 0); [simpl; lia|simpl; lia|vm_compute; discriminate].
Qed.

(** C = E + A B *)
Theorem C105_gemm_upd : forall prec emax (Hp : FLX.Prec_gt_0 prec) (He : Prec_lt_emax prec emax) (m : mem (ieee_ops prec emax Hp He)) A B E C a b e (p : nat -> nat -> Z) (u : nat -> nat -> Z) (w : nat -> nat -> Z),
  ext0 C = ext0 A -> ext1 A = ext0 B -> ext1 C = ext1 B -> ext0 E = ext0 C -> ext1 E = ext1 C ->
  mat_holds m A a -> mat_holds m B b -> mat_holds m E e -> mwritable C -> allocated m (mcells C) ->
  disjoint (mcells A) (mcells C) -> disjoint (mcells B) (mcells C) -> disjoint_or_aligned_m E C ->
  (forall i j, i < ext0 A -> j < ext1 A -> int_valued (a i j) (p i j)) ->
  (forall i j, i < ext0 B -> j < ext1 B -> int_valued (b i j) (u i j)) ->
  (forall i j, i < ext0 E -> j < ext1 E -> int_valued (e i j) (w i j)) ->
  succeeds (matrix_product_upd A B E C) m (fun _ m' => exists r, mat_holds m' C r /\ forall i j, i < ext0 C -> j < ext1 C ->
    fits_in prec (Z.abs (w i j) + zsum (ext1 A) (fun k => Z.abs (p i k * u k j)))%Z -> int_valued (r i j) (w i j + zsum (ext1 A) (fun k => p i k * u k j))%Z).
Proof. exact gemm_upd_exact. Qed.
Print Assumptions C105_gemm_upd.
Example C105_gemm_upd_case : succeeds (matrix_product_upd (row_major 0 2 2) (row_major 4 2 2) (row_major 14 2 2) (row_major 18 2 2)) int_mem (fun _ m' => exists r, mat_holds m' (row_major 18 2 2) r /\ int_valued (r 1 0 : F64) (-24)).
Proof.
  eapply wp_conseq; [apply (C105_gemm_upd 53 1024 prec53 emax1024 int_mem (row_major 0 2 2) (row_major 4 2 2) (row_major 14 2 2) (row_major 18 2 2) (fm [[fl (2) 0; fl (-7) 0]; [fl (-5) 0; fl (3) 0]]) (fm [[fl (6) 0; fl (-1) 0]; [fl (1) 0; fl (4) 0]]) (fm [[fl (1) 0; fl (-2) 0]; [fl (3) 0; fl (-4) 0]]) (zm [[(2)%Z; (-7)%Z]; [(-5)%Z; (3)%Z]]) (zm [[(6)%Z; (-1)%Z]; [(1)%Z; (4)%Z]]) (zm [[(1)%Z; (-2)%Z]; [(3)%Z; (-4)%Z]])); conc|].
  intros u m' (r & K1 & K2). exists r. split; [exact K1|]. apply (K2 1 0); [simpl; lia|simpl; lia|vm_compute; discriminate].
Qed.

(** C = A B, A symmetric *)
Theorem C105_symm_left : forall prec emax (Hp : FLX.Prec_gt_0 prec) (He : Prec_lt_emax prec emax) (m : mem (ieee_ops prec emax Hp He)) A t B C a b (u : nat -> nat -> Z) (p : nat -> nat -> Z),
  ext0 A = ext1 A -> ext0 C = ext0 A -> ext1 A = ext0 B -> ext1 C = ext1 B ->
  mat_holds_on m A (in_tri t) a -> mat_holds m B b -> mwritable C -> allocated m (mcells C) ->
  disjoint (mcells_on A (in_tri t)) (mcells C) -> disjoint (mcells B) (mcells C) ->
  (forall i j, i < ext0 B -> j < ext1 B -> int_valued (b i j) (u i j)) ->
  (forall i j, i < ext0 A -> j < ext1 A -> in_tri t i j -> int_valued (a i j) (p i j)) ->
  symmetric_z p ->
  succeeds (symmetric_matrix_product_left A t B C) m (fun _ m' => exists r, mat_holds m' C r /\ forall i j, i < ext0 C -> j < ext1 C ->
    fits_in prec (zsum (ext1 A) (fun k => Z.abs (p i k * u k j)))%Z -> int_valued (r i j) (zsum (ext1 A) (fun k => p i k * u k j))%Z).
Proof. exact symm_left_exact. Qed.
Print Assumptions C105_symm_left.
Example C105_symm_left_case : succeeds (symmetric_matrix_product_left (row_major 0 2 2) Lower (row_major 4 2 2) (row_major 14 2 2)) int_mem (fun _ m' => exists r, mat_holds m' (row_major 14 2 2) r /\ int_valued (r 1 0 : F64) (-27)).
Proof.
  eapply wp_conseq; [apply (C105_symm_left 53 1024 prec53 emax1024 int_mem (row_major 0 2 2) Lower (row_major 4 2 2) (row_major 14 2 2) (fm [[fl (2) 0; fl (-7) 0]; [fl (-5) 0; fl (3) 0]]) (fm [[fl (6) 0; fl (-1) 0]; [fl (1) 0; fl (4) 0]]) (zm [[(6)%Z; (-1)%Z]; [(1)%Z; (4)%Z]]) (zm [[(2)%Z; (-5)%Z]; [(-5)%Z; (3)%Z]])); conc|].
  intros u m' (r & K1 & K2). exists r. split; [exact K1|]. apply (K2 1 0); [simpl; lia|simpl; lia|vm_compute; discriminate].
Qed.

(** C = B A, A symmetric *)
Theorem C105_symm_right : forall prec emax (Hp : FLX.Prec_gt_0 prec) (He : Prec_lt_emax prec emax) (m : mem (ieee_ops prec emax Hp He)) B A t C a b (u : nat -> nat -> Z) (p : nat -> nat -> Z),
  ext0 A = ext1 A -> ext0 C = ext0 B -> ext1 B = ext0 A -> ext1 C = ext1 A ->
  mat_holds_on m A (in_tri t) a -> mat_holds m B b -> mwritable C -> allocated m (mcells C) ->
  disjoint (mcells_on A (in_tri t)) (mcells C) -> disjoint (mcells B) (mcells C) ->
  (forall i j, i < ext0 B -> j < ext1 B -> int_valued (b i j) (u i j)) ->
  (forall i j, i < ext0 A -> j < ext1 A -> in_tri t i j -> int_valued (a i j) (p i j)) ->
  symmetric_z p ->
  succeeds (symmetric_matrix_product_right B A t C) m (fun _ m' => exists r, mat_holds m' C r /\ forall i j, i < ext0 C -> j < ext1 C ->
    fits_in prec (zsum (ext1 A) (fun k => Z.abs (u i k * p k j)))%Z -> int_valued (r i j) (zsum (ext1 A) (fun k => u i k * p k j))%Z).
Proof. exact symm_right_exact. Qed.
Print Assumptions C105_symm_right.
Example C105_symm_right_case : succeeds (symmetric_matrix_product_right (row_major 4 2 2) (row_major 0 2 2) Lower (row_major 14 2 2)) int_mem (fun _ m' => exists r, mat_holds m' (row_major 14 2 2) r /\ int_valued (r 1 0 : F64) (-18)).
Proof.
  eapply wp_conseq; [apply (C105_symm_right 53 1024 prec53 emax1024 int_mem (row_major 4 2 2) (row_major 0 2 2) Lower (row_major 14 2 2) (fm [[fl (2) 0; fl (-7) 0]; [fl (-5) 0; fl (3) 0]]) (fm [[fl (6) 0; fl (-1) 0]; [fl (1) 0; fl (4) 0]]) (zm [[(6)%Z; (-1)%Z]; [(1)%Z; (4)%Z]]) (zm [[(2)%Z; (-5)%Z]; [(-5)%Z; (3)%Z]])); conc|].
  intros u m' (r & K1 & K2). exists r. split; [exact K1|]. apply (K2 1 0); [simpl; lia|simpl; lia|vm_compute; discriminate].
Qed.

(** C = A B, A Hermitian *)
Theorem C105_hemm_left : forall prec emax (Hp : FLX.Prec_gt_0 prec) (He : Prec_lt_emax prec emax) (m : mem (ieee_ops prec emax Hp He)) A t B C a b (u : nat -> nat -> Z) (p : nat -> nat -> Z),
  ext0 A = ext1 A -> ext0 C = ext0 A -> ext1 A = ext0 B -> ext1 C = ext1 B ->
  mat_holds_on m A (in_tri t) a -> mat_holds m B b -> mwritable C -> allocated m (mcells C) ->
  disjoint (mcells_on A (in_tri t)) (mcells C) -> disjoint (mcells B) (mcells C) ->
  (forall i j, i < ext0 B -> j < ext1 B -> int_valued (b i j) (u i j)) ->
  (forall i j, i < ext0 A -> j < ext1 A -> in_tri t i j -> int_valued (a i j) (p i j)) ->
  symmetric_z p ->
  succeeds (hermitian_matrix_product_left A t B C) m (fun _ m' => exists r, mat_holds m' C r /\ forall i j, i < ext0 C -> j < ext1 C ->
    fits_in prec (zsum (ext1 A) (fun k => Z.abs (p i k * u k j)))%Z -> int_valued (r i j) (zsum (ext1 A) (fun k => p i k * u k j))%Z).
Proof. exact hemm_left_exact. Qed.
Print Assumptions C105_hemm_left.
Example C105_hemm_left_case : succeeds (hermitian_matrix_product_left (row_major 0 2 2) Lower (row_major 4 2 2) (row_major 14 2 2)) int_mem (fun _ m' => exists r, mat_holds m' (row_major 14 2 2) r /\ int_valued (r 1 0 : F64) (-27)).
Proof.
  eapply wp_conseq; [apply (C105_hemm_left 53 1024 prec53 emax1024 int_mem (row_major 0 2 2) Lower (row_major 4 2 2) (row_major 14 2 2) (fm [[fl (2) 0; fl (-7) 0]; [fl (-5) 0; fl (3) 0]]) (fm [[fl (6) 0; fl (-1) 0]; [fl (1) 0; fl (4) 0]]) (zm [[(6)%Z; (-1)%Z]; [(1)%Z; (4)%Z]]) (zm [[(2)%Z; (-5)%Z]; [(-5)%Z; (3)%Z]])); conc|].
  intros u m' (r & K1 & K2). exists r. split; [exact K1|]. apply (K2 1 0); [simpl; lia|simpl; lia|vm_compute; discriminate].
Qed.

(** C = B A, A Hermitian *)
Theorem C105_hemm_right : forall prec emax (Hp : FLX.Prec_gt_0 prec) (He : Prec_lt_emax prec emax) (m : mem (ieee_ops prec emax Hp He)) B A t C a b (u : nat -> nat -> Z) (p : nat -> nat -> Z),
  ext0 A = ext1 A -> ext0 C = ext0 B -> ext1 B = ext0 A -> ext1 C = ext1 A ->
  mat_holds_on m A (in_tri t) a -> mat_holds m B b -> mwritable C -> allocated m (mcells C) ->
  disjoint (mcells_on A (in_tri t)) (mcells C) -> disjoint (mcells B) (mcells C) ->
  (forall i j, i < ext0 B -> j < ext1 B -> int_valued (b i j) (u i j)) ->
  (forall i j, i < ext0 A -> j < ext1 A -> in_tri t i j -> int_valued (a i j) (p i j)) ->
  symmetric_z p ->
  succeeds (hermitian_matrix_product_right B A t C) m (fun _ m' => exists r, mat_holds m' C r /\ forall i j, i < ext0 C -> j < ext1 C ->
    fits_in prec (zsum (ext1 A) (fun k => Z.abs (u i k * p k j)))%Z -> int_valued (r i j) (zsum (ext1 A) (fun k => u i k * p k j))%Z).
Proof. exact hemm_right_exact. Qed.
Print Assumptions C105_hemm_right.
Example C105_hemm_right_case : succeeds (hermitian_matrix_product_right (row_major 4 2 2) (row_major 0 2 2) Lower (row_major 14 2 2)) int_mem (fun _ m' => exists r, mat_holds m' (row_major 14 2 2) r /\ int_valued (r 1 0 : F64) (-18)).
Proof.
  eapply wp_conseq; [apply (C105_hemm_right 53 1024 prec53 emax1024 int_mem (row_major 4 2 2) (row_major 0 2 2) Lower (row_major 14 2 2) (fm [[fl (2) 0; fl (-7) 0]; [fl (-5) 0; fl (3) 0]]) (fm [[fl (6) 0; fl (-1) 0]; [fl (1) 0; fl (4) 0]]) (zm [[(6)%Z; (-1)%Z]; [(1)%Z; (4)%Z]]) (zm [[(2)%Z; (-5)%Z]; [(-5)%Z; (3)%Z]])); conc|].
  intros u m' (r & K1 & K2). exists r. split; [exact K1|]. apply (K2 1 0); [simpl; lia|simpl; lia|vm_compute; discriminate].
Qed.

(** C = A B, A triangular *)
Theorem C105_trmm_left : forall prec emax (Hp : FLX.Prec_gt_0 prec) (He : Prec_lt_emax prec emax) ty (m : mem (ieee_ops prec emax Hp He)) A t d B C a b (u : nat -> nat -> Z) (p : nat -> nat -> Z),
  fits ty (ext0 C) ->
  ext0 A = ext1 A -> ext0 C = ext0 A -> ext1 A = ext0 B -> ext1 C = ext1 B ->
  mat_holds_on m A (stored t d) a -> mat_holds m B b -> mwritable C -> allocated m (mcells C) ->
  disjoint (mcells_on A (stored t d)) (mcells C) -> disjoint (mcells B) (mcells C) ->
  (forall i j, i < ext0 B -> j < ext1 B -> int_valued (b i j) (u i j)) ->
  (forall i j, i < ext0 A -> j < ext1 A -> stored t d i j -> int_valued (a i j) (p i j)) ->
  triangular_z t d p ->
  succeeds (triangular_matrix_product_left ty A t d B C) m (fun _ m' => exists r, mat_holds m' C r /\ forall i j, i < ext0 C -> j < ext1 C ->
    fits_in prec (zsum (ext1 A) (fun k => Z.abs (p i k * u k j)))%Z -> int_valued (r i j) (zsum (ext1 A) (fun k => p i k * u k j))%Z).
Proof. exact trmm_left_exact. Qed.
Print Assumptions C105_trmm_left.
Example C105_trmm_left_case : succeeds (triangular_matrix_product_left I32 (row_major 0 2 2) Lower Explicit (row_major 4 2 2) (row_major 14 2 2)) int_mem (fun _ m' => exists r, mat_holds m' (row_major 14 2 2) r /\ int_valued (r 1 0 : F64) (-27)).
Proof.
  eapply wp_conseq; [apply (C105_trmm_left 53 1024 prec53 emax1024 I32 int_mem (row_major 0 2 2) Lower Explicit (row_major 4 2 2) (row_major 14 2 2) (fm [[fl (2) 0; fl (-7) 0]; [fl (-5) 0; fl (3) 0]]) (fm [[fl (6) 0; fl (-1) 0]; [fl (1) 0; fl (4) 0]]) (zm [[(6)%Z; (-1)%Z]; [(1)%Z; (4)%Z]]) (zm [[(2)%Z; (0)%Z]; [(-5)%Z; (3)%Z]])); conc|].
  intros u m' (r & K1 & K2). exists r. split; [exact K1|]. apply (K2 1 0); [simpl; lia|simpl; lia|vm_compute; discriminate].
Qed.

(** C = B A, A triangular *)
Theorem C105_trmm_right : forall prec emax (Hp : FLX.Prec_gt_0 prec) (He : Prec_lt_emax prec emax) ty (m : mem (ieee_ops prec emax Hp He)) B A t d C a b (u : nat -> nat -> Z) (p : nat -> nat -> Z),
  fits ty (ext1 C) ->
  ext0 A = ext1 A -> ext0 C = ext0 B -> ext1 B = ext0 A -> ext1 C = ext1 A ->
  mat_holds_on m A (stored t d) a -> mat_holds m B b -> mwritable C -> allocated m (mcells C) ->
  disjoint (mcells_on A (stored t d)) (mcells C) -> disjoint (mcells B) (mcells C) ->
  (forall i j, i < ext0 B -> j < ext1 B -> int_valued (b i j) (u i j)) ->
  (forall i j, i < ext0 A -> j < ext1 A -> stored t d i j -> int_valued (a i j) (p i j)) ->
  triangular_z t d p ->
  succeeds (triangular_matrix_product_right ty B A t d C) m (fun _ m' => exists r, mat_holds m' C r /\ forall i j, i < ext0 C -> j < ext1 C ->
    fits_in prec (zsum (ext1 A) (fun k => Z.abs (u i k * p k j)))%Z -> int_valued (r i j) (zsum (ext1 A) (fun k => u i k * p k j))%Z).
Proof. exact trmm_right_exact. Qed.
Print Assumptions C105_trmm_right.
Example C105_trmm_right_case : succeeds (triangular_matrix_product_right I32 (row_major 4 2 2) (row_major 0 2 2) Lower Explicit (row_major 14 2 2)) int_mem (fun _ m' => exists r, mat_holds m' (row_major 14 2 2) r /\ int_valued (r 1 0 : F64) (-18)).
Proof.
  eapply wp_conseq; [apply (C105_trmm_right 53 1024 prec53 emax1024 I32 int_mem (row_major 4 2 2) (row_major 0 2 2) Lower Explicit (row_major 14 2 2) (fm [[fl (2) 0; fl (-7) 0]; [fl (-5) 0; fl (3) 0]]) (fm [[fl (6) 0; fl (-1) 0]; [fl (1) 0; fl (4) 0]]) (zm [[(6)%Z; (-1)%Z]; [(1)%Z; (4)%Z]]) (zm [[(2)%Z; (0)%Z]; [(-5)%Z; (3)%Z]])); conc|].
  intros u m' (r & K1 & K2). exists r. split; [exact K1|]. apply (K2 1 0); [simpl; lia|simpl; lia|vm_compute; discriminate].
Qed.

(** C = A C, A triangular *)
Theorem C105_trmm_left_inplace : forall prec emax (Hp : FLX.Prec_gt_0 prec) (He : Prec_lt_emax prec emax) (m : mem (ieee_ops prec emax Hp He)) A t d C a c (w : nat -> nat -> Z) (p : nat -> nat -> Z),
  ext0 A = ext1 A -> ext0 C = ext0 A ->
  mat_holds_on m A (stored t d) a -> mat_holds m C c -> mwritable C ->
  disjoint (mcells_on A (stored t d)) (mcells C) ->
  (forall i j, i < ext0 C -> j < ext1 C -> int_valued (c i j) (w i j)) ->
  (forall i j, i < ext0 A -> j < ext1 A -> stored t d i j -> int_valued (a i j) (p i j)) ->
  triangular_z t d p ->
  succeeds (triangular_matrix_left_product A t d C) m (fun _ m' => exists r, mat_holds m' C r /\ forall i j, i < ext0 C -> j < ext1 C ->
    fits_in prec (zsum (ext1 A) (fun k => Z.abs (p i k * w k j)))%Z -> int_valued (r i j) (zsum (ext1 A) (fun k => p i k * w k j))%Z).
Proof. exact trmm_left_inplace_exact. Qed.
Print Assumptions C105_trmm_left_inplace.
Example C105_trmm_left_inplace_case : succeeds (triangular_matrix_left_product (row_major 0 2 2) Lower Explicit (row_major 4 2 2)) int_mem (fun _ m' => exists r, mat_holds m' (row_major 4 2 2) r /\ int_valued (r 1 0 : F64) (-27)).
Proof.
  eapply wp_conseq; [apply (C105_trmm_left_inplace 53 1024 prec53 emax1024 int_mem (row_major 0 2 2) Lower Explicit (row_major 4 2 2) (fm [[fl (2) 0; fl (-7) 0]; [fl (-5) 0; fl (3) 0]]) (fm [[fl (6) 0; fl (-1) 0]; [fl (1) 0; fl (4) 0]]) (zm [[(6)%Z; (-1)%Z]; [(1)%Z; (4)%Z]]) (zm [[(2)%Z; (0)%Z]; [(-5)%Z; (3)%Z]])); conc|].
  intros u m' (r & K1 & K2). exists r. split; [exact K1|]. apply (K2 1 0); [simpl; lia|simpl; lia|vm_compute; discriminate].
Qed.

(** C = C A, A triangular *)
Theorem C105_trmm_right_inplace : forall prec emax (Hp : FLX.Prec_gt_0 prec) (He : Prec_lt_emax prec emax) (m : mem (ieee_ops prec emax Hp He)) A t d C a c (w : nat -> nat -> Z) (p : nat -> nat -> Z),
  ext0 A = ext1 A -> ext1 C = ext0 A ->
  mat_holds_on m A (stored t d) a -> mat_holds m C c -> mwritable C ->
  disjoint (mcells_on A (stored t d)) (mcells C) ->
  (forall i j, i < ext0 C -> j < ext1 C -> int_valued (c i j) (w i j)) ->
  (forall i j, i < ext0 A -> j < ext1 A -> stored t d i j -> int_valued (a i j) (p i j)) ->
  triangular_z t d p ->
  succeeds (triangular_matrix_right_product A t d C) m (fun _ m' => exists r, mat_holds m' C r /\ forall i j, i < ext0 C -> j < ext1 C ->
    fits_in prec (zsum (ext1 A) (fun k => Z.abs (w i k * p k j)))%Z -> int_valued (r i j) (zsum (ext1 A) (fun k => w i k * p k j))%Z).
Proof. exact trmm_right_inplace_exact. Qed.
Print Assumptions C105_trmm_right_inplace.
Example C105_trmm_right_inplace_case : succeeds (triangular_matrix_right_product (row_major 0 2 2) Lower Explicit (row_major 4 2 2)) int_mem (fun _ m' => exists r, mat_holds m' (row_major 4 2 2) r /\ int_valued (r 1 0 : F64) (-18)).
Proof.
  eapply wp_conseq; [apply (C105_trmm_right_inplace 53 1024 prec53 emax1024 int_mem (row_major 0 2 2) Lower Explicit (row_major 4 2 2) (fm [[fl (2) 0; fl (-7) 0]; [fl (-5) 0; fl (3) 0]]) (fm [[fl (6) 0; fl (-1) 0]; [fl (1) 0; fl (4) 0]]) (zm [[(6)%Z; (-1)%Z]; [(1)%Z; (4)%Z]]) (zm [[(2)%Z; (0)%Z]; [(-5)%Z; (3)%Z]])); conc|].
  intros u m' (r & K1 & K2). exists r. split; [exact K1|]. apply (K2 1 0); [simpl; lia|simpl; lia|vm_compute; discriminate].
Qed.

(** C += A A^T on one triangle *)
Theorem C105_syrk : forall prec emax (Hp : FLX.Prec_gt_0 prec) (He : Prec_lt_emax prec emax) (m : mem (ieee_ops prec emax Hp He)) A C t a c (p : nat -> nat -> Z) (w : nat -> nat -> Z),
  ext0 C = ext1 C -> ext0 A = ext0 C ->
  mat_holds m A a -> mat_holds_on m C (in_tri t) c -> mwritable_on C (in_tri t) ->
  disjoint (mcells A) (mcells_on C (in_tri t)) ->
  (forall i j, i < ext0 A -> j < ext1 A -> int_valued (a i j) (p i j)) ->
  (forall i j, i < ext0 C -> j < ext1 C -> in_tri t i j -> int_valued (c i j) (w i j)) ->
  succeeds (symmetric_matrix_rank_k_update A C t) m (fun _ m' => exists r, mat_holds_on m' C (in_tri t) r /\ forall i j, i < ext0 C -> j < ext1 C -> in_tri t i j ->
    fits_in prec (Z.abs (w i j) + zsum (ext1 A) (fun k => Z.abs (p i k * p j k)))%Z -> int_valued (r i j) (w i j + zsum (ext1 A) (fun k => p i k * p j k))%Z).
Proof. exact syrk_exact. Qed.
Print Assumptions C105_syrk.
Example C105_syrk_case : succeeds (symmetric_matrix_rank_k_update (row_major 0 2 2) (row_major 14 2 2) Lower) int_mem (fun _ m' => exists r, mat_holds_on m' (row_major 14 2 2) (in_tri Lower) r /\ int_valued (r 1 0 : F64) (-28)).
Proof.
  eapply wp_conseq; [apply (C105_syrk 53 1024 prec53 emax1024 int_mem (row_major 0 2 2) (row_major 14 2 2) Lower (fm [[fl (2) 0; fl (-7) 0]; [fl (-5) 0; fl (3) 0]]) (fm [[fl (1) 0; fl (-2) 0]; [fl (3) 0; fl (-4) 0]]) (zm [[(2)%Z; (-7)%Z]; [(-5)%Z; (3)%Z]]) (zm [[(1)%Z; (-2)%Z]; [(3)%Z; (-4)%Z]])); conc|].
  intros u m' (r & K1 & K2). exists r. split; [exact K1|]. apply (K2 1 0); [simpl; lia|simpl; lia|simpl; lia|vm_compute; discriminate].
Qed.

(** C += A A^H on one triangle *)
Theorem C105_herk : forall prec emax (Hp : FLX.Prec_gt_0 prec) (He : Prec_lt_emax prec emax) (m : mem (ieee_ops prec emax Hp He)) A C t a c (p : nat -> nat -> Z) (w : nat -> nat -> Z),
  ext0 C = ext1 C -> ext0 A = ext0 C ->
  mat_holds m A a -> mat_holds_on m C (in_tri t) c -> mwritable_on C (in_tri t) ->
  disjoint (mcells A) (mcells_on C (in_tri t)) ->
  (forall i j, i < ext0 A -> j < ext1 A -> int_valued (a i j) (p i j)) ->
  (forall i j, i < ext0 C -> j < ext1 C -> in_tri t i j -> int_valued (c i j) (w i j)) ->
  succeeds (hermitian_matrix_rank_k_update A C t) m (fun _ m' => exists r, mat_holds_on m' C (in_tri t) r /\ forall i j, i < ext0 C -> j < ext1 C -> in_tri t i j ->
    fits_in prec (Z.abs (w i j) + zsum (ext1 A) (fun k => Z.abs (p i k * p j k)))%Z -> int_valued (r i j) (w i j + zsum (ext1 A) (fun k => p i k * p j k))%Z).
Proof. exact herk_exact. Qed.
Print Assumptions C105_herk.
Example C105_herk_case : succeeds (hermitian_matrix_rank_k_update (row_major 0 2 2) (row_major 14 2 2) Lower) int_mem (fun _ m' => exists r, mat_holds_on m' (row_major 14 2 2) (in_tri Lower) r /\ int_valued (r 1 0 : F64) (-28)).
Proof.
  eapply wp_conseq; [apply (C105_herk 53 1024 prec53 emax1024 int_mem (row_major 0 2 2) (row_major 14 2 2) Lower (fm [[fl (2) 0; fl (-7) 0]; [fl (-5) 0; fl (3) 0]]) (fm [[fl (1) 0; fl (-2) 0]; [fl (3) 0; fl (-4) 0]]) (zm [[(2)%Z; (-7)%Z]; [(-5)%Z; (3)%Z]]) (zm [[(1)%Z; (-2)%Z]; [(3)%Z; (-4)%Z]])); conc|].
  intros u m' (r & K1 & K2). exists r. split; [exact K1|]. apply (K2 1 0); [simpl; lia|simpl; lia|simpl; lia|vm_compute; discriminate].
Qed.

(** C += A B^T + B A^T on one triangle *)
Theorem C105_syr2k : forall prec emax (Hp : FLX.Prec_gt_0 prec) (He : Prec_lt_emax prec emax) (m : mem (ieee_ops prec emax Hp He)) A B C t a b c (p : nat -> nat -> Z) (u : nat -> nat -> Z) (w : nat -> nat -> Z),
  ext0 C = ext1 C -> ext0 A = ext0 C -> ext0 B = ext0 C -> ext1 B = ext1 A ->
  mat_holds m A a -> mat_holds m B b -> mat_holds_on m C (in_tri t) c -> mwritable_on C (in_tri t) ->
  disjoint (mcells A) (mcells_on C (in_tri t)) -> disjoint (mcells B) (mcells_on C (in_tri t)) ->
  (forall i j, i < ext0 A -> j < ext1 A -> int_valued (a i j) (p i j)) ->
  (forall i j, i < ext0 B -> j < ext1 B -> int_valued (b i j) (u i j)) ->
  (forall i j, i < ext0 C -> j < ext1 C -> in_tri t i j -> int_valued (c i j) (w i j)) ->
  succeeds (symmetric_matrix_rank_2k_update A B C t) m (fun _ m' => exists r, mat_holds_on m' C (in_tri t) r /\ forall i j, i < ext0 C -> j < ext1 C -> in_tri t i j ->
    fits_in prec (Z.abs (w i j) + zsum (ext1 A) (fun k => (Z.abs (p i k * u j k) + Z.abs (u i k * p j k))%Z))%Z -> int_valued (r i j) (w i j + zsum (ext1 A) (fun k => (p i k * u j k + u i k * p j k)%Z))%Z).
Proof. exact syr2k_exact. Qed.
Print Assumptions C105_syr2k.
Example C105_syr2k_case : succeeds (symmetric_matrix_rank_2k_update (row_major 0 2 2) (row_major 4 2 2) (row_major 14 2 2) Lower) int_mem (fun _ m' => exists r, mat_holds_on m' (row_major 14 2 2) (in_tri Lower) r /\ int_valued (r 1 0 : F64) (-56)).
Proof.
  eapply wp_conseq; [apply (C105_syr2k 53 1024 prec53 emax1024 int_mem (row_major 0 2 2) (row_major 4 2 2) (row_major 14 2 2) Lower (fm [[fl (2) 0; fl (-7) 0]; [fl (-5) 0; fl (3) 0]]) (fm [[fl (6) 0; fl (-1) 0]; [fl (1) 0; fl (4) 0]]) (fm [[fl (1) 0; fl (-2) 0]; [fl (3) 0; fl (-4) 0]]) (zm [[(2)%Z; (-7)%Z]; [(-5)%Z; (3)%Z]]) (zm [[(6)%Z; (-1)%Z]; [(1)%Z; (4)%Z]]) (zm [[(1)%Z; (-2)%Z]; [(3)%Z; (-4)%Z]])); conc|].
  intros u m' (r & K1 & K2). exists r. split; [exact K1|]. apply (K2 1 0); [simpl; lia|simpl; lia|simpl; lia|vm_compute; discriminate].
Qed.

(** C += A B^H + B A^H on one triangle *)
Theorem C105_her2k : forall prec emax (Hp : FLX.Prec_gt_0 prec) (He : Prec_lt_emax prec emax) (m : mem (ieee_ops prec emax Hp He)) A B C t a b c (p : nat -> nat -> Z) (u : nat -> nat -> Z) (w : nat -> nat -> Z),
  ext0 C = ext1 C -> ext0 A = ext0 C -> ext0 B = ext0 C -> ext1 B = ext1 A ->
  mat_holds m A a -> mat_holds m B b -> mat_holds_on m C (in_tri t) c -> mwritable_on C (in_tri t) ->
  disjoint (mcells A) (mcells_on C (in_tri t)) -> disjoint (mcells B) (mcells_on C (in_tri t)) ->
  (forall i j, i < ext0 A -> j < ext1 A -> int_valued (a i j) (p i j)) ->
  (forall i j, i < ext0 B -> j < ext1 B -> int_valued (b i j) (u i j)) ->
  (forall i j, i < ext0 C -> j < ext1 C -> in_tri t i j -> int_valued (c i j) (w i j)) ->
  succeeds (hermitian_matrix_rank_2k_update A B C t) m (fun _ m' => exists r, mat_holds_on m' C (in_tri t) r /\ forall i j, i < ext0 C -> j < ext1 C -> in_tri t i j ->
    fits_in prec (Z.abs (w i j) + zsum (ext1 A) (fun k => (Z.abs (p i k * u j k) + Z.abs (u i k * p j k))%Z))%Z -> int_valued (r i j) (w i j + zsum (ext1 A) (fun k => (p i k * u j k + u i k * p j k)%Z))%Z).
Proof. exact her2k_exact. Qed.
Print Assumptions C105_her2k.
Example C105_her2k_case : succeeds (hermitian_matrix_rank_2k_update (row_major 0 2 2) (row_major 4 2 2) (row_major 14 2 2) Lower) int_mem (fun _ m' => exists r, mat_holds_on m' (row_major 14 2 2) (in_tri Lower) r /\ int_valued (r 1 0 : F64) (-56)).
Proof.
  eapply wp_conseq; [apply (C105_her2k 53 1024 prec53 emax1024 int_mem (row_major 0 2 2) (row_major 4 2 2) (row_major 14 2 2) Lower (fm [[fl (2) 0; fl (-7) 0]; [fl (-5) 0; fl (3) 0]]) (fm [[fl (6) 0; fl (-1) 0]; [fl (1) 0; fl (4) 0]]) (fm [[fl (1) 0; fl (-2) 0]; [fl (3) 0; fl (-4) 0]]) (zm [[(2)%Z; (-7)%Z]; [(-5)%Z; (3)%Z]]) (zm [[(6)%Z; (-1)%Z]; [(1)%Z; (4)%Z]]) (zm [[(1)%Z; (-2)%Z]; [(3)%Z; (-4)%Z]])); conc|].
  intros u m' (r & K1 & K2). exists r. split; [exact K1|]. apply (K2 1 0); [simpl; lia|simpl; lia|simpl; lia|vm_compute; discriminate].
Qed.


(** C88: elements that spoil every result they enter, such as NaN in real IEEE arithmetic, reach every result that
    depends on them: nothing is skipped because a factor or coefficient is zero. *)
From Coq Require Import List Arith ZArith Lia Bool.
From Flocq Require Import Core.Core IEEE754.BinarySingleNaN.
From Verif Require Import Mem Scalar View Spec SpecSub SpecInp SpecNan Idx Norm Ieee Blas1 Blas2 Blas3 Wp PfNan PfNanI Inst PropFloat.
Import ListNotations.
Local Open Scope nat_scope.
Local Open Scope sc_scope.

(** NaN spoils every operation of a real IEEE type, of every format. *)
Theorem C88_nan : forall prec emax (Hp : FLX.Prec_gt_0 prec) (He : Prec_lt_emax prec emax),
  absorbing (ieee_ops prec emax Hp He) (fun x : binary_float prec emax => is_nan x = true).
Proof. exact nan_absorbing. Qed.
Print Assumptions C88_nan.

(** Used with it below: memory of A = [2 7; NaN 3], B = [0 0; 1 1], x = (0, 1), y = (4, 5), w = (NaN, 6),
    C = [1 2; 3 4], D = [0 0; 0 0] in binary64. *)
Definition nan64 : F64 := B754_nan. (* test data *)
Definition nan_mem : mem F64 := (* test data *)
  mem_of [fl 2 0; fl 7 0; nan64; fl 3 0; fl 0 0; fl 0 0; fl 1 0; fl 1 0; fl 0 0; fl 1 0; fl 4 0; fl 5 0; nan64; fl 6 0;
          fl 1 0; fl 2 0; fl 3 0; fl 4 0; fl 0 0; fl 0 0; fl 0 0; fl 0 0].
Example C88_nan_case : is_nan (mul (fl 0 0 : F64) nan64 : F64) = true.
Proof. apply (ab_mul (C88_nan _ _ _ _)). right. reflexivity. Qed.
Ltac side := solve [simpl; lia | reflexivity | split; [simpl; lia|discriminate] | left; side | right; side].
Ltac conc := unfold nan_mem; concrete; try solve [intros; reflexivity | vm_compute; split; discriminate | discriminate | intros; discriminate].

(** x = alpha x *)
Theorem C88_scale : forall (O : ops) (bad : O -> Prop), absorbing O bad -> forall (m : mem O) alpha x f,
  vec_holds m x f -> vwritable x ->
  succeeds (scale_1 alpha x) m (fun _ m' =>
    (exists r, vec_holds m' x r /\
     forall i, i < vext x -> bad alpha \/ bad (f i) -> bad (r i)) /\
    changes_only m m' (vcells x)).
Proof. exact (@scale_bad). Qed.
Print Assumptions C88_scale.
(** 0 * NaN *)
Example C88_scale_case :
  succeeds (scale_1 (fl 0 0) (vec_at 12 2)) nan_mem (fun _ m' => exists r, vec_holds m' (vec_at 12 2) r /\ is_nan (r 0 : F64) = true).
Proof.
  eapply wp_conseq; [apply (C88_scale F64 _ (C88_nan _ _ _ _) nan_mem (fl 0 0) (vec_at 12 2) (fv [nan64; fl 6 0])); conc|].
  intros _ m' [(r & K1 & K2) _]. exists r. split; [exact K1|]. apply (K2 0); side.
Qed.

(** the same for a matrix *)
Theorem C88_scale_2 : forall (O : ops) (bad : O -> Prop), absorbing O bad -> forall (m : mem O) alpha x f,
  mat_holds m x f -> mwritable x ->
  succeeds (scale_2 alpha x) m (fun _ m' =>
    (exists r, mat_holds m' x r /\
     forall i j, i < ext0 x -> j < ext1 x -> bad alpha \/ bad (f i j) -> bad (r i j)) /\
    changes_only m m' (mcells x)).
Proof. exact (@scale_2_bad). Qed.
Print Assumptions C88_scale_2.
Example C88_scale_2_case :
  succeeds (scale_2 (fl 0 0) (row_major 0 2 2)) nan_mem (fun _ m' => exists r, mat_holds m' (row_major 0 2 2) r /\ is_nan (r 1 0 : F64) = true).
Proof.
  eapply wp_conseq; [apply (C88_scale_2 F64 _ (C88_nan _ _ _ _) nan_mem (fl 0 0) (row_major 0 2 2) (fm [[fl 2 0; fl 7 0]; [nan64; fl 3 0]])); conc|].
  intros _ m' [(r & K1 & K2) _]. exists r. split; [exact K1|]. apply (K2 1 0); side.
Qed.

(** z = x + y *)
Theorem C88_add : forall (O : ops) (bad : O -> Prop), absorbing O bad -> forall (m : mem O) x y z f g,
  vext x = vext z -> vext y = vext z -> vec_holds m x f -> vec_holds m y g ->
  vwritable z -> allocated m (vcells z) -> disjoint_or_aligned_v x z -> disjoint_or_aligned_v y z ->
  succeeds (add_1 x y z) m (fun _ m' =>
    (exists r, vec_holds m' z r /\
     forall i, i < vext z -> bad (f i) \/ bad (g i) -> bad (r i)) /\
    changes_only m m' (vcells z)).
Proof. exact (@add_bad). Qed.
Print Assumptions C88_add.
Example C88_add_case :
  succeeds (add_1 (vec_at 8 2) (vec_at 12 2) (vec_at 10 2)) nan_mem (fun _ m' => exists r, vec_holds m' (vec_at 10 2) r /\ is_nan (r 0 : F64) = true).
Proof.
  eapply wp_conseq; [apply (C88_add F64 _ (C88_nan _ _ _ _) nan_mem (vec_at 8 2) (vec_at 12 2) (vec_at 10 2) (fv [fl 0 0; fl 1 0]) (fv [nan64; fl 6 0])); conc|].
  intros _ m' [(r & K1 & K2) _]. exists r. split; [exact K1|]. apply (K2 0); side.
Qed.

(** the same for matrices *)
Theorem C88_add_2 : forall (O : ops) (bad : O -> Prop), absorbing O bad -> forall (m : mem O) x y z f g,
  ext0 x = ext0 z -> ext1 x = ext1 z -> ext0 y = ext0 z -> ext1 y = ext1 z ->
  mat_holds m x f -> mat_holds m y g ->
  mwritable z -> allocated m (mcells z) -> disjoint_or_aligned_m x z -> disjoint_or_aligned_m y z ->
  succeeds (add_2 x y z) m (fun _ m' =>
    (exists r, mat_holds m' z r /\
     forall i j, i < ext0 z -> j < ext1 z -> bad (f i j) \/ bad (g i j) -> bad (r i j)) /\
    changes_only m m' (mcells z)).
Proof. exact (@add_2_bad). Qed.
Print Assumptions C88_add_2.
Example C88_add_2_case :
  succeeds (add_2 (row_major 0 2 2) (row_major 4 2 2) (row_major 14 2 2)) nan_mem (fun _ m' => exists r, mat_holds m' (row_major 14 2 2) r /\ is_nan (r 1 0 : F64) = true).
Proof.
  eapply wp_conseq; [apply (C88_add_2 F64 _ (C88_nan _ _ _ _) nan_mem (row_major 0 2 2) (row_major 4 2 2) (row_major 14 2 2) (fm [[fl 2 0; fl 7 0]; [nan64; fl 3 0]]) (fm [[fl 0 0; fl 0 0]; [fl 1 0; fl 1 0]])); conc|].
  intros _ m' [(r & K1 & K2) _]. exists r. split; [exact K1|]. apply (K2 1 0); side.
Qed.

(** init + sum x_i y_i *)
Theorem C88_dot : forall (O : ops) (bad : O -> Prop), absorbing O bad -> forall (m : mem O) x y f g init,
  vext x = vext y -> vec_holds m x f -> vec_holds m y g ->
  succeeds (dot x y init) m (fun r m' =>
    (bad init -> bad r) /\
     (forall k, k < vext x -> bad (f k) \/ bad (g k) -> bad r) /\ m' = m).
Proof. exact (@dot_bad). Qed.
Print Assumptions C88_dot.
(** 0 * NaN + 1 * 6 *)
Example C88_dot_case :
  succeeds (dot (vec_at 8 2) (vec_at 12 2) (fl 0 0)) nan_mem (fun r m' => is_nan (r : F64) = true).
Proof.
  eapply wp_conseq; [apply (C88_dot F64 _ (C88_nan _ _ _ _) nan_mem (vec_at 8 2) (vec_at 12 2) (fv [fl 0 0; fl 1 0]) (fv [nan64; fl 6 0]) (fl 0 0)); conc|].
  intros r m' (Q1 & Q2 & _). apply (Q2 0); side.
Qed.

(** init + sum conj(x_i) y_i *)
Theorem C88_dotc : forall (O : ops) (bad : O -> Prop), absorbing O bad -> forall (m : mem O) fix_nc nc x y f g init,
  (forall v : O, conj (conj v) = v) -> (nc = true -> forall v : O, conj v = v) ->
  vext x = vext y -> vec_holds m x f -> vec_holds m y g ->
  succeeds (dotc fix_nc nc x y init) m (fun r m' =>
    (bad init -> bad r) /\
     (forall k, k < vext x -> bad (f k) \/ bad (g k) -> bad r) /\ m' = m).
Proof. exact (@dotc_bad). Qed.
Print Assumptions C88_dotc.
Example C88_dotc_case :
  succeeds (dotc true true (vec_at 8 2) (vec_at 12 2) (fl 0 0)) nan_mem (fun r m' => is_nan (r : F64) = true).
Proof.
  eapply wp_conseq; [apply (C88_dotc F64 _ (C88_nan _ _ _ _) nan_mem true true (vec_at 8 2) (vec_at 12 2) (fv [fl 0 0; fl 1 0]) (fv [nan64; fl 6 0]) (fl 0 0)); conc|].
  intros r m' (Q1 & Q2 & _). apply (Q2 0); side.
Qed.

(** x, y = c x + s y, c y - s x *)
Theorem C88_givens : forall (O : ops) (bad : O -> Prop), absorbing O bad -> forall (m : mem O) x y f g c s,
  vext x = vext y -> vec_holds m x f -> vec_holds m y g -> vwritable x -> vwritable y ->
  disjoint (vcells x) (vcells y) ->
  succeeds (apply_givens_rotation x y c s) m (fun _ m' =>
    (exists p q, vec_holds m' x p /\ vec_holds m' y q /\
     forall i, i < vext x -> bad c \/ bad s \/ bad (f i) \/ bad (g i) -> bad (p i) /\ bad (q i)) /\
    changes_only m m' (fun c => vcells x c \/ vcells y c)).
Proof. exact (@givens_bad). Qed.
Print Assumptions C88_givens.
(** the identity rotation c = 1, s = 0 spoils x_0, too *)
Example C88_givens_case :
  succeeds (apply_givens_rotation (vec_at 8 2) (vec_at 12 2) (fl 1 0) (fl 0 0)) nan_mem (fun _ m' => exists p q, vec_holds m' (vec_at 8 2) p /\ vec_holds m' (vec_at 12 2) q /\ is_nan (p 0 : F64) = true /\ is_nan (q 0 : F64) = true).
Proof.
  eapply wp_conseq; [apply (C88_givens F64 _ (C88_nan _ _ _ _) nan_mem (vec_at 8 2) (vec_at 12 2) (fv [fl 0 0; fl 1 0]) (fv [nan64; fl 6 0]) (fl 1 0) (fl 0 0)); conc|].
  intros _ m' [(p & q & K & K1 & K2) _]. exists p, q. split; [exact K|split; [exact K1|]]. apply (K2 0); side.
Qed.

(** y = A x *)
Theorem C88_gemv : forall (O : ops) (bad : O -> Prop), absorbing O bad -> forall (m : mem O) A x y a f,
  vext x = ext1 A -> vext y = ext0 A ->
  mat_holds m A a -> vec_holds m x f -> vwritable y -> allocated m (vcells y) ->
  disjoint (mcells A) (vcells y) -> disjoint (vcells x) (vcells y) ->
  succeeds (matrix_vector_product A x y) m (fun _ m' =>
    (exists r, vec_holds m' y r /\
     forall i k, i < vext y -> k < ext1 A -> bad (a i k) \/ bad (f k) -> bad (r i)) /\
    changes_only m m' (vcells y)).
Proof. exact (@gemv_bad). Qed.
Print Assumptions C88_gemv.
(** row 1 is NaN * 0 + 3 * 1 *)
Example C88_gemv_case :
  succeeds (matrix_vector_product (row_major 0 2 2) (vec_at 8 2) (vec_at 10 2)) nan_mem (fun _ m' => exists r, vec_holds m' (vec_at 10 2) r /\ is_nan (r 1 : F64) = true).
Proof.
  eapply wp_conseq; [apply (C88_gemv F64 _ (C88_nan _ _ _ _) nan_mem (row_major 0 2 2) (vec_at 8 2) (vec_at 10 2) (fm [[fl 2 0; fl 7 0]; [nan64; fl 3 0]]) (fv [fl 0 0; fl 1 0])); conc|].
  intros _ m' [(r & K1 & K2) _]. exists r. split; [exact K1|]. apply (K2 1 0); side.
Qed.

(** z = y + A x *)
Theorem C88_gemv_upd : forall (O : ops) (bad : O -> Prop), absorbing O bad -> forall (m : mem O) A x y z a f g,
  vext x = ext1 A -> vext y = ext0 A -> vext z = ext0 A ->
  mat_holds m A a -> vec_holds m x f -> vec_holds m y g -> vwritable z -> allocated m (vcells z) ->
  disjoint (mcells A) (vcells z) -> disjoint (vcells x) (vcells z) -> disjoint_or_aligned_v y z ->
  succeeds (matrix_vector_product_upd A x y z) m (fun _ m' =>
    (exists r, vec_holds m' z r /\
     (forall i, i < vext z -> bad (g i) -> bad (r i)) /\
     (forall i k, i < vext z -> k < ext1 A -> bad (a i k) \/ bad (f k) -> bad (r i))) /\
    changes_only m m' (vcells z)).
Proof. exact (@gemv_upd_bad). Qed.
Print Assumptions C88_gemv_upd.
Example C88_gemv_upd_case :
  succeeds (matrix_vector_product_upd (row_major 0 2 2) (vec_at 8 2) (vec_at 10 2) (vec_at 12 2)) nan_mem (fun _ m' => exists r, vec_holds m' (vec_at 12 2) r /\ is_nan (r 1 : F64) = true).
Proof.
  eapply wp_conseq; [apply (C88_gemv_upd F64 _ (C88_nan _ _ _ _) nan_mem (row_major 0 2 2) (vec_at 8 2) (vec_at 10 2) (vec_at 12 2) (fm [[fl 2 0; fl 7 0]; [nan64; fl 3 0]]) (fv [fl 0 0; fl 1 0]) (fv [fl 4 0; fl 5 0])); conc|].
  intros _ m' [(r & K1 & (Q1 & Q2)) _]. exists r. split; [exact K1|]. apply (Q2 1 0); side.
Qed.

(** y = A x, A symmetric *)
Theorem C88_symv : forall (O : ops) (bad : O -> Prop), absorbing O bad -> forall (m : mem O) A t x y a f,
  ext0 A = ext1 A -> vext x = ext1 A -> vext y = ext0 A ->
  mat_holds_on m A (in_tri t) a -> vec_holds m x f -> vwritable y -> allocated m (vcells y) ->
  disjoint (mcells_on A (in_tri t)) (vcells y) -> disjoint (vcells x) (vcells y) ->
  succeeds (symmetric_matrix_vector_product A t x y) m (fun _ m' =>
    (exists r, vec_holds m' y r /\
     (forall i k, i < vext y -> k < ext1 A -> bad (f k) -> bad (r i)) /\
     (forall i k, i < vext y -> k < ext1 A -> in_tri t i k -> bad (a i k) -> bad (r i) /\ bad (r k))) /\
    changes_only m m' (vcells y)).
Proof. exact (@symv_bad). Qed.
Print Assumptions C88_symv.
Example C88_symv_case :
  succeeds (symmetric_matrix_vector_product (row_major 0 2 2) Lower (vec_at 8 2) (vec_at 10 2)) nan_mem (fun _ m' => exists r, vec_holds m' (vec_at 10 2) r /\ is_nan (r 1 : F64) = true /\ is_nan (r 0 : F64) = true).
Proof.
  eapply wp_conseq; [apply (C88_symv F64 _ (C88_nan _ _ _ _) nan_mem (row_major 0 2 2) Lower (vec_at 8 2) (vec_at 10 2) (fm [[fl 2 0; fl 7 0]; [nan64; fl 3 0]]) (fv [fl 0 0; fl 1 0])); conc|].
  intros _ m' [(r & K1 & (Q1 & Q2)) _]. exists r. split; [exact K1|]. apply (Q2 1 0); side.
Qed.

(** z = y + A x, A symmetric *)
Theorem C88_symv_upd : forall (O : ops) (bad : O -> Prop), absorbing O bad -> forall (m : mem O) A t x y z a f g,
  ext0 A = ext1 A -> vext x = ext1 A -> vext y = ext0 A -> vext z = ext0 A ->
  mat_holds_on m A (in_tri t) a -> vec_holds m x f -> vec_holds m y g -> vwritable z -> allocated m (vcells z) ->
  disjoint (mcells_on A (in_tri t)) (vcells z) -> disjoint (vcells x) (vcells z) -> disjoint_or_aligned_v y z ->
  succeeds (symmetric_matrix_vector_product_upd A t x y z) m (fun _ m' =>
    (exists r, vec_holds m' z r /\
     (forall i, i < vext z -> bad (g i) -> bad (r i)) /\
     (forall i k, i < vext z -> k < ext1 A -> bad (f k) -> bad (r i)) /\
     (forall i k, i < vext z -> k < ext1 A -> in_tri t i k -> bad (a i k) -> bad (r i) /\ bad (r k))) /\
    changes_only m m' (vcells z)).
Proof. exact (@symv_upd_bad). Qed.
Print Assumptions C88_symv_upd.
Example C88_symv_upd_case :
  succeeds (symmetric_matrix_vector_product_upd (row_major 0 2 2) Lower (vec_at 8 2) (vec_at 10 2) (vec_at 12 2)) nan_mem (fun _ m' => exists r, vec_holds m' (vec_at 12 2) r /\ is_nan (r 1 : F64) = true /\ is_nan (r 0 : F64) = true).
Proof.
  eapply wp_conseq; [apply (C88_symv_upd F64 _ (C88_nan _ _ _ _) nan_mem (row_major 0 2 2) Lower (vec_at 8 2) (vec_at 10 2) (vec_at 12 2) (fm [[fl 2 0; fl 7 0]; [nan64; fl 3 0]]) (fv [fl 0 0; fl 1 0]) (fv [fl 4 0; fl 5 0])); conc|].
  intros _ m' [(r & K1 & (Q1 & Q2 & Q3)) _]. exists r. split; [exact K1|]. apply (Q3 1 0); side.
Qed.

(** y = A x, A Hermitian *)
Theorem C88_hemv : forall (O : ops) (bad : O -> Prop), absorbing O bad -> forall (m : mem O) A t x y a f,
  ext0 A = ext1 A -> vext x = ext1 A -> vext y = ext0 A ->
  mat_holds_on m A (in_tri t) a -> vec_holds m x f -> vwritable y -> allocated m (vcells y) ->
  disjoint (mcells_on A (in_tri t)) (vcells y) -> disjoint (vcells x) (vcells y) ->
  succeeds (hermitian_matrix_vector_product A t x y) m (fun _ m' =>
    (exists r, vec_holds m' y r /\
     (forall i k, i < vext y -> k < ext1 A -> bad (f k) -> bad (r i)) /\
     (forall i k, i < vext y -> k < ext1 A -> in_tri t i k -> bad (a i k) -> bad (r i) /\ bad (r k))) /\
    changes_only m m' (vcells y)).
Proof. exact (@hemv_bad). Qed.
Print Assumptions C88_hemv.
Example C88_hemv_case :
  succeeds (hermitian_matrix_vector_product (row_major 0 2 2) Lower (vec_at 8 2) (vec_at 10 2)) nan_mem (fun _ m' => exists r, vec_holds m' (vec_at 10 2) r /\ is_nan (r 1 : F64) = true /\ is_nan (r 0 : F64) = true).
Proof.
  eapply wp_conseq; [apply (C88_hemv F64 _ (C88_nan _ _ _ _) nan_mem (row_major 0 2 2) Lower (vec_at 8 2) (vec_at 10 2) (fm [[fl 2 0; fl 7 0]; [nan64; fl 3 0]]) (fv [fl 0 0; fl 1 0])); conc|].
  intros _ m' [(r & K1 & (Q1 & Q2)) _]. exists r. split; [exact K1|]. apply (Q2 1 0); side.
Qed.

(** z = y + A x, A Hermitian *)
Theorem C88_hemv_upd : forall (O : ops) (bad : O -> Prop), absorbing O bad -> forall (m : mem O) A t x y z a f g,
  ext0 A = ext1 A -> vext x = ext1 A -> vext y = ext0 A -> vext z = ext0 A ->
  mat_holds_on m A (in_tri t) a -> vec_holds m x f -> vec_holds m y g -> vwritable z -> allocated m (vcells z) ->
  disjoint (mcells_on A (in_tri t)) (vcells z) -> disjoint (vcells x) (vcells z) -> disjoint_or_aligned_v y z ->
  succeeds (hermitian_matrix_vector_product_upd A t x y z) m (fun _ m' =>
    (exists r, vec_holds m' z r /\
     (forall i, i < vext z -> bad (g i) -> bad (r i)) /\
     (forall i k, i < vext z -> k < ext1 A -> bad (f k) -> bad (r i)) /\
     (forall i k, i < vext z -> k < ext1 A -> in_tri t i k -> bad (a i k) -> bad (r i) /\ bad (r k))) /\
    changes_only m m' (vcells z)).
Proof. exact (@hemv_upd_bad). Qed.
Print Assumptions C88_hemv_upd.
Example C88_hemv_upd_case :
  succeeds (hermitian_matrix_vector_product_upd (row_major 0 2 2) Lower (vec_at 8 2) (vec_at 10 2) (vec_at 12 2)) nan_mem (fun _ m' => exists r, vec_holds m' (vec_at 12 2) r /\ is_nan (r 1 : F64) = true /\ is_nan (r 0 : F64) = true).
Proof.
  eapply wp_conseq; [apply (C88_hemv_upd F64 _ (C88_nan _ _ _ _) nan_mem (row_major 0 2 2) Lower (vec_at 8 2) (vec_at 10 2) (vec_at 12 2) (fm [[fl 2 0; fl 7 0]; [nan64; fl 3 0]]) (fv [fl 0 0; fl 1 0]) (fv [fl 4 0; fl 5 0])); conc|].
  intros _ m' [(r & K1 & (Q1 & Q2 & Q3)) _]. exists r. split; [exact K1|]. apply (Q3 1 0); side.
Qed.

(** y = A x, A triangular *)
Theorem C88_trmv : forall (O : ops) (bad : O -> Prop), absorbing O bad -> forall (m : mem O) A t d x y a f,
  ext0 A = ext1 A -> vext x = ext1 A -> vext y = ext0 A ->
  mat_holds_on m A (stored t d) a -> vec_holds m x f -> vwritable y -> allocated m (vcells y) ->
  disjoint (mcells_on A (stored t d)) (vcells y) -> disjoint (vcells x) (vcells y) ->
  succeeds (triangular_matrix_vector_product A t d x y) m (fun _ m' =>
    (exists r, vec_holds m' y r /\
     (forall i k, i < vext y -> k < ext1 A -> in_tri t i k -> bad (f k) -> bad (r i)) /\
     (forall i k, i < vext y -> k < ext1 A -> stored t d i k -> bad (a i k) -> bad (r i))) /\
    changes_only m m' (vcells y)).
Proof. exact (@trmv_bad). Qed.
Print Assumptions C88_trmv.
Example C88_trmv_case :
  succeeds (triangular_matrix_vector_product (row_major 0 2 2) Lower Explicit (vec_at 8 2) (vec_at 10 2)) nan_mem (fun _ m' => exists r, vec_holds m' (vec_at 10 2) r /\ is_nan (r 1 : F64) = true).
Proof.
  eapply wp_conseq; [apply (C88_trmv F64 _ (C88_nan _ _ _ _) nan_mem (row_major 0 2 2) Lower Explicit (vec_at 8 2) (vec_at 10 2) (fm [[fl 2 0; fl 7 0]; [nan64; fl 3 0]]) (fv [fl 0 0; fl 1 0])); conc|].
  intros _ m' [(r & K1 & (Q1 & Q2)) _]. exists r. split; [exact K1|]. apply (Q2 1 0); side.
Qed.

(** z = y + A x, A triangular *)
Theorem C88_trmv_upd : forall (O : ops) (bad : O -> Prop), absorbing O bad -> forall (m : mem O) A t d x y z a f g,
  ext0 A = ext1 A -> vext x = ext1 A -> vext y = ext0 A -> vext z = ext0 A ->
  mat_holds_on m A (stored t d) a -> vec_holds m x f -> vec_holds m y g -> vwritable z -> allocated m (vcells z) ->
  disjoint (mcells_on A (stored t d)) (vcells z) -> disjoint (vcells x) (vcells z) -> disjoint_or_aligned_v y z ->
  succeeds (triangular_matrix_vector_product_upd A t d x y z) m (fun _ m' =>
    (exists r, vec_holds m' z r /\
     (forall i, i < vext z -> bad (g i) -> bad (r i)) /\
     (forall i k, i < vext z -> k < ext1 A -> in_tri t i k -> bad (f k) -> bad (r i)) /\
     (forall i k, i < vext z -> k < ext1 A -> stored t d i k -> bad (a i k) -> bad (r i))) /\
    changes_only m m' (vcells z)).
Proof. exact (@trmv_upd_bad). Qed.
Print Assumptions C88_trmv_upd.
Example C88_trmv_upd_case :
  succeeds (triangular_matrix_vector_product_upd (row_major 0 2 2) Lower Explicit (vec_at 8 2) (vec_at 10 2) (vec_at 12 2)) nan_mem (fun _ m' => exists r, vec_holds m' (vec_at 12 2) r /\ is_nan (r 1 : F64) = true).
Proof.
  eapply wp_conseq; [apply (C88_trmv_upd F64 _ (C88_nan _ _ _ _) nan_mem (row_major 0 2 2) Lower Explicit (vec_at 8 2) (vec_at 10 2) (vec_at 12 2) (fm [[fl 2 0; fl 7 0]; [nan64; fl 3 0]]) (fv [fl 0 0; fl 1 0]) (fv [fl 4 0; fl 5 0])); conc|].
  intros _ m' [(r & K1 & (Q1 & Q2 & Q3)) _]. exists r. split; [exact K1|]. apply (Q3 1 0); side.
Qed.

(** y = A y, A triangular *)
Theorem C88_trmv_inplace : forall (O : ops) (bad : O -> Prop), absorbing O bad -> forall (m : mem O) A t d y a f,
  ext0 A = ext1 A -> vext y = ext0 A ->
  mat_holds_on m A (stored t d) a -> vec_holds m y f -> vwritable y ->
  disjoint (mcells_on A (stored t d)) (vcells y) ->
  succeeds (triangular_matrix_vector_product_inplace A t d y) m (fun _ m' =>
    (exists r, vec_holds m' y r /\
     (forall i k, i < vext y -> k < ext1 A -> in_tri t i k -> bad (f k) -> bad (r i)) /\
     (forall i k, i < vext y -> k < ext1 A -> stored t d i k -> bad (a i k) -> bad (r i))) /\
    changes_only m m' (vcells y)).
Proof. exact (@trmv_inplace_bad). Qed.
Print Assumptions C88_trmv_inplace.
Example C88_trmv_inplace_case :
  succeeds (triangular_matrix_vector_product_inplace (row_major 0 2 2) Lower Explicit (vec_at 8 2)) nan_mem (fun _ m' => exists r, vec_holds m' (vec_at 8 2) r /\ is_nan (r 1 : F64) = true).
Proof.
  eapply wp_conseq; [apply (C88_trmv_inplace F64 _ (C88_nan _ _ _ _) nan_mem (row_major 0 2 2) Lower Explicit (vec_at 8 2) (fm [[fl 2 0; fl 7 0]; [nan64; fl 3 0]]) (fv [fl 0 0; fl 1 0])); conc|].
  intros _ m' [(r & K1 & (Q1 & Q2)) _]. exists r. split; [exact K1|]. apply (Q2 1 0); side.
Qed.

(** A += x y^T *)
Theorem C88_ger : forall (O : ops) (bad : O -> Prop), absorbing O bad -> forall (m : mem O) x y A a f g,
  vext x = ext0 A -> vext y = ext1 A ->
  mat_holds m A a -> vec_holds m x f -> vec_holds m y g -> mwritable A ->
  disjoint (vcells x) (mcells A) -> disjoint (vcells y) (mcells A) ->
  succeeds (matrix_rank_1_update x y A) m (fun _ m' =>
    (exists r, mat_holds m' A r /\
     forall i j, i < ext0 A -> j < ext1 A -> bad (a i j) \/ bad (f i) \/ bad (g j) -> bad (r i j)) /\
    changes_only m m' (mcells A)).
Proof. exact (@ger_bad). Qed.
Print Assumptions C88_ger.
Example C88_ger_case :
  succeeds (matrix_rank_1_update (vec_at 8 2) (vec_at 12 2) (row_major 14 2 2)) nan_mem (fun _ m' => exists r, mat_holds m' (row_major 14 2 2) r /\ is_nan (r 0 0 : F64) = true).
Proof.
  eapply wp_conseq; [apply (C88_ger F64 _ (C88_nan _ _ _ _) nan_mem (vec_at 8 2) (vec_at 12 2) (row_major 14 2 2) (fm [[fl 1 0; fl 2 0]; [fl 3 0; fl 4 0]]) (fv [fl 0 0; fl 1 0]) (fv [nan64; fl 6 0])); conc|].
  intros _ m' [(r & K1 & K2) _]. exists r. split; [exact K1|]. apply (K2 0 0); side.
Qed.

(** A += x y^H *)
Theorem C88_gerc : forall (O : ops) (bad : O -> Prop), absorbing O bad -> forall (m : mem O) fix_nc nc x y A a f g,
  (forall v : O, conj (conj v) = v) -> (nc = true -> forall v : O, conj v = v) ->
  vext x = ext0 A -> vext y = ext1 A ->
  mat_holds m A a -> vec_holds m x f -> vec_holds m y g -> mwritable A ->
  disjoint (vcells x) (mcells A) -> disjoint (vcells y) (mcells A) ->
  succeeds (matrix_rank_1_update_c fix_nc nc x y A) m (fun _ m' =>
    (exists r, mat_holds m' A r /\
     forall i j, i < ext0 A -> j < ext1 A -> bad (a i j) \/ bad (f i) \/ bad (g j) -> bad (r i j)) /\
    changes_only m m' (mcells A)).
Proof. exact (@gerc_bad). Qed.
Print Assumptions C88_gerc.
Example C88_gerc_case :
  succeeds (matrix_rank_1_update_c true true (vec_at 8 2) (vec_at 12 2) (row_major 14 2 2)) nan_mem (fun _ m' => exists r, mat_holds m' (row_major 14 2 2) r /\ is_nan (r 0 0 : F64) = true).
Proof.
  eapply wp_conseq; [apply (C88_gerc F64 _ (C88_nan _ _ _ _) nan_mem true true (vec_at 8 2) (vec_at 12 2) (row_major 14 2 2) (fm [[fl 1 0; fl 2 0]; [fl 3 0; fl 4 0]]) (fv [fl 0 0; fl 1 0]) (fv [nan64; fl 6 0])); conc|].
  intros _ m' [(r & K1 & K2) _]. exists r. split; [exact K1|]. apply (K2 0 0); side.
Qed.

(** A += x x^T on one triangle *)
Theorem C88_syr : forall (O : ops) (bad : O -> Prop), absorbing O bad -> forall (m : mem O) x A t a f,
  ext0 A = ext1 A -> vext x = ext0 A ->
  mat_holds_on m A (in_tri t) a -> vec_holds m x f -> mwritable_on A (in_tri t) ->
  disjoint (vcells x) (mcells_on A (in_tri t)) ->
  succeeds (symmetric_matrix_rank_1_update x A t) m (fun _ m' =>
    (exists r, mat_holds_on m' A (in_tri t) r /\
     forall i j, i < ext0 A -> j < ext1 A -> in_tri t i j -> bad (a i j) \/ bad (f i) \/ bad (f j) -> bad (r i j)) /\
    changes_only m m' (mcells_on A (in_tri t))).
Proof. exact (@syr_bad). Qed.
Print Assumptions C88_syr.
Example C88_syr_case :
  succeeds (symmetric_matrix_rank_1_update (vec_at 12 2) (row_major 14 2 2) Lower) nan_mem (fun _ m' => exists r, mat_holds_on m' (row_major 14 2 2) (in_tri Lower) r /\ is_nan (r 1 0 : F64) = true).
Proof.
  eapply wp_conseq; [apply (C88_syr F64 _ (C88_nan _ _ _ _) nan_mem (vec_at 12 2) (row_major 14 2 2) Lower (fm [[fl 1 0; fl 2 0]; [fl 3 0; fl 4 0]]) (fv [nan64; fl 6 0])); conc|].
  intros _ m' [(r & K1 & K2) _]. exists r. split; [exact K1|]. apply (K2 1 0); side.
Qed.

(** A += alpha x x^T on one triangle *)
Theorem C88_syr_alpha : forall (O : ops) (bad : O -> Prop), absorbing O bad -> forall (m : mem O) alpha x A t a f,
  ext0 A = ext1 A -> vext x = ext0 A ->
  mat_holds_on m A (in_tri t) a -> vec_holds m x f -> mwritable_on A (in_tri t) ->
  disjoint (vcells x) (mcells_on A (in_tri t)) ->
  succeeds (symmetric_matrix_rank_1_update_alpha alpha x A t) m (fun _ m' =>
    (exists r, mat_holds_on m' A (in_tri t) r /\
     forall i j, i < ext0 A -> j < ext1 A -> in_tri t i j -> bad alpha \/ bad (a i j) \/ bad (f i) \/ bad (f j) -> bad (r i j)) /\
    changes_only m m' (mcells_on A (in_tri t))).
Proof. exact (@syr_alpha_bad). Qed.
Print Assumptions C88_syr_alpha.
(** alpha = 0 is not special *)
Example C88_syr_alpha_case :
  succeeds (symmetric_matrix_rank_1_update_alpha (fl 0 0) (vec_at 12 2) (row_major 14 2 2) Lower) nan_mem (fun _ m' => exists r, mat_holds_on m' (row_major 14 2 2) (in_tri Lower) r /\ is_nan (r 1 0 : F64) = true).
Proof.
  eapply wp_conseq; [apply (C88_syr_alpha F64 _ (C88_nan _ _ _ _) nan_mem (fl 0 0) (vec_at 12 2) (row_major 14 2 2) Lower (fm [[fl 1 0; fl 2 0]; [fl 3 0; fl 4 0]]) (fv [nan64; fl 6 0])); conc|].
  intros _ m' [(r & K1 & K2) _]. exists r. split; [exact K1|]. apply (K2 1 0); side.
Qed.

(** A += x y^T + y x^T on one triangle *)
Theorem C88_syr2 : forall (O : ops) (bad : O -> Prop), absorbing O bad -> forall (m : mem O) x y A t a f g,
  ext0 A = ext1 A -> vext x = ext0 A -> vext y = ext0 A ->
  mat_holds_on m A (in_tri t) a -> vec_holds m x f -> vec_holds m y g -> mwritable_on A (in_tri t) ->
  disjoint (vcells x) (mcells_on A (in_tri t)) -> disjoint (vcells y) (mcells_on A (in_tri t)) ->
  succeeds (symmetric_matrix_rank_2_update x y A t) m (fun _ m' =>
    (exists r, mat_holds_on m' A (in_tri t) r /\
     forall i j, i < ext0 A -> j < ext1 A -> in_tri t i j ->
       bad (a i j) \/ bad (f i) \/ bad (f j) \/ bad (g i) \/ bad (g j) -> bad (r i j)) /\
    changes_only m m' (mcells_on A (in_tri t))).
Proof. exact (@syr2_bad). Qed.
Print Assumptions C88_syr2.
Example C88_syr2_case :
  succeeds (symmetric_matrix_rank_2_update (vec_at 8 2) (vec_at 12 2) (row_major 14 2 2) Lower) nan_mem (fun _ m' => exists r, mat_holds_on m' (row_major 14 2 2) (in_tri Lower) r /\ is_nan (r 1 0 : F64) = true).
Proof.
  eapply wp_conseq; [apply (C88_syr2 F64 _ (C88_nan _ _ _ _) nan_mem (vec_at 8 2) (vec_at 12 2) (row_major 14 2 2) Lower (fm [[fl 1 0; fl 2 0]; [fl 3 0; fl 4 0]]) (fv [fl 0 0; fl 1 0]) (fv [nan64; fl 6 0])); conc|].
  intros _ m' [(r & K1 & K2) _]. exists r. split; [exact K1|]. apply (K2 1 0); side.
Qed.

(** A += x x^H on one triangle *)
Theorem C88_her : forall (O : ops) (bad : O -> Prop), absorbing O bad -> forall (m : mem O) x A t a f,
  ext0 A = ext1 A -> vext x = ext0 A ->
  mat_holds_on m A (in_tri t) a -> vec_holds m x f -> mwritable_on A (in_tri t) ->
  disjoint (vcells x) (mcells_on A (in_tri t)) ->
  succeeds (hermitian_matrix_rank_1_update x A t) m (fun _ m' =>
    (exists r, mat_holds_on m' A (in_tri t) r /\
     forall i j, i < ext0 A -> j < ext1 A -> in_tri t i j -> bad (a i j) \/ bad (f i) \/ bad (f j) -> bad (r i j)) /\
    changes_only m m' (mcells_on A (in_tri t))).
Proof. exact (@her_bad). Qed.
Print Assumptions C88_her.
Example C88_her_case :
  succeeds (hermitian_matrix_rank_1_update (vec_at 12 2) (row_major 14 2 2) Lower) nan_mem (fun _ m' => exists r, mat_holds_on m' (row_major 14 2 2) (in_tri Lower) r /\ is_nan (r 1 0 : F64) = true).
Proof.
  eapply wp_conseq; [apply (C88_her F64 _ (C88_nan _ _ _ _) nan_mem (vec_at 12 2) (row_major 14 2 2) Lower (fm [[fl 1 0; fl 2 0]; [fl 3 0; fl 4 0]]) (fv [nan64; fl 6 0])); conc|].
  intros _ m' [(r & K1 & K2) _]. exists r. split; [exact K1|]. apply (K2 1 0); side.
Qed.

(** A += alpha x x^H on one triangle *)
Theorem C88_her_alpha : forall (O : ops) (bad : O -> Prop), absorbing O bad -> forall (m : mem O) alpha x A t a f,
  ext0 A = ext1 A -> vext x = ext0 A ->
  mat_holds_on m A (in_tri t) a -> vec_holds m x f -> mwritable_on A (in_tri t) ->
  disjoint (vcells x) (mcells_on A (in_tri t)) ->
  succeeds (hermitian_matrix_rank_1_update_alpha alpha x A t) m (fun _ m' =>
    (exists r, mat_holds_on m' A (in_tri t) r /\
     forall i j, i < ext0 A -> j < ext1 A -> in_tri t i j -> bad alpha \/ bad (a i j) \/ bad (f i) \/ bad (f j) -> bad (r i j)) /\
    changes_only m m' (mcells_on A (in_tri t))).
Proof. exact (@her_alpha_bad). Qed.
Print Assumptions C88_her_alpha.
Example C88_her_alpha_case :
  succeeds (hermitian_matrix_rank_1_update_alpha (fl 0 0) (vec_at 12 2) (row_major 14 2 2) Lower) nan_mem (fun _ m' => exists r, mat_holds_on m' (row_major 14 2 2) (in_tri Lower) r /\ is_nan (r 1 0 : F64) = true).
Proof.
  eapply wp_conseq; [apply (C88_her_alpha F64 _ (C88_nan _ _ _ _) nan_mem (fl 0 0) (vec_at 12 2) (row_major 14 2 2) Lower (fm [[fl 1 0; fl 2 0]; [fl 3 0; fl 4 0]]) (fv [nan64; fl 6 0])); conc|].
  intros _ m' [(r & K1 & K2) _]. exists r. split; [exact K1|]. apply (K2 1 0); side.
Qed.

(** A += x y^H + y x^H on one triangle *)
Theorem C88_her2 : forall (O : ops) (bad : O -> Prop), absorbing O bad -> forall (m : mem O) x y A t a f g,
  ext0 A = ext1 A -> vext x = ext0 A -> vext y = ext0 A ->
  mat_holds_on m A (in_tri t) a -> vec_holds m x f -> vec_holds m y g -> mwritable_on A (in_tri t) ->
  disjoint (vcells x) (mcells_on A (in_tri t)) -> disjoint (vcells y) (mcells_on A (in_tri t)) ->
  succeeds (hermitian_matrix_rank_2_update x y A t) m (fun _ m' =>
    (exists r, mat_holds_on m' A (in_tri t) r /\
     forall i j, i < ext0 A -> j < ext1 A -> in_tri t i j ->
       bad (a i j) \/ bad (f i) \/ bad (f j) \/ bad (g i) \/ bad (g j) -> bad (r i j)) /\
    changes_only m m' (mcells_on A (in_tri t))).
Proof. exact (@her2_bad). Qed.
Print Assumptions C88_her2.
Example C88_her2_case :
  succeeds (hermitian_matrix_rank_2_update (vec_at 8 2) (vec_at 12 2) (row_major 14 2 2) Lower) nan_mem (fun _ m' => exists r, mat_holds_on m' (row_major 14 2 2) (in_tri Lower) r /\ is_nan (r 1 0 : F64) = true).
Proof.
  eapply wp_conseq; [apply (C88_her2 F64 _ (C88_nan _ _ _ _) nan_mem (vec_at 8 2) (vec_at 12 2) (row_major 14 2 2) Lower (fm [[fl 1 0; fl 2 0]; [fl 3 0; fl 4 0]]) (fv [fl 0 0; fl 1 0]) (fv [nan64; fl 6 0])); conc|].
  intros _ m' [(r & K1 & K2) _]. exists r. split; [exact K1|]. apply (K2 1 0); side.
Qed.

(** C = A B *)
Theorem C88_gemm : forall (O : ops) (bad : O -> Prop), absorbing O bad -> forall (m : mem O) A B C a b,
  ext0 C = ext0 A -> ext1 A = ext0 B -> ext1 C = ext1 B ->
  mat_holds m A a -> mat_holds m B b -> mwritable C -> allocated m (mcells C) ->
  disjoint (mcells A) (mcells C) -> disjoint (mcells B) (mcells C) ->
  succeeds (matrix_product A B C) m (fun _ m' =>
    (exists r, mat_holds m' C r /\
     forall i j k, i < ext0 C -> j < ext1 C -> k < ext1 A -> bad (a i k) \/ bad (b k j) -> bad (r i j)) /\
    changes_only m m' (mcells C)).
Proof. exact (@gemm_bad). Qed.
Print Assumptions C88_gemm.
(** the whole row 1, although row 0 of B is zero *)
Example C88_gemm_case :
  succeeds (matrix_product (row_major 0 2 2) (row_major 4 2 2) (row_major 14 2 2)) nan_mem (fun _ m' => exists r, mat_holds m' (row_major 14 2 2) r /\ is_nan (r 1 1 : F64) = true).
Proof.
  eapply wp_conseq; [apply (C88_gemm F64 _ (C88_nan _ _ _ _) nan_mem (row_major 0 2 2) (row_major 4 2 2) (row_major 14 2 2) (fm [[fl 2 0; fl 7 0]; [nan64; fl 3 0]]) (fm [[fl 0 0; fl 0 0]; [fl 1 0; fl 1 0]])); conc|].
  intros _ m' [(r & K1 & K2) _]. exists r. split; [exact K1|]. apply (K2 1 1 0); side.
Qed.

(** C = E + A B *)
Theorem C88_gemm_upd : forall (O : ops) (bad : O -> Prop), absorbing O bad -> forall (m : mem O) A B E C a b e,
  ext0 C = ext0 A -> ext1 A = ext0 B -> ext1 C = ext1 B -> ext0 E = ext0 C -> ext1 E = ext1 C ->
  mat_holds m A a -> mat_holds m B b -> mat_holds m E e -> mwritable C -> allocated m (mcells C) ->
  disjoint (mcells A) (mcells C) -> disjoint (mcells B) (mcells C) -> disjoint_or_aligned_m E C ->
  succeeds (matrix_product_upd A B E C) m (fun _ m' =>
    (exists r, mat_holds m' C r /\
     (forall i j, i < ext0 C -> j < ext1 C -> bad (e i j) -> bad (r i j)) /\
     (forall i j k, i < ext0 C -> j < ext1 C -> k < ext1 A -> bad (a i k) \/ bad (b k j) -> bad (r i j))) /\
    changes_only m m' (mcells C)).
Proof. exact (@gemm_upd_bad). Qed.
Print Assumptions C88_gemm_upd.
Example C88_gemm_upd_case :
  succeeds (matrix_product_upd (row_major 0 2 2) (row_major 4 2 2) (row_major 14 2 2) (row_major 18 2 2)) nan_mem (fun _ m' => exists r, mat_holds m' (row_major 18 2 2) r /\ is_nan (r 1 1 : F64) = true).
Proof.
  eapply wp_conseq; [apply (C88_gemm_upd F64 _ (C88_nan _ _ _ _) nan_mem (row_major 0 2 2) (row_major 4 2 2) (row_major 14 2 2) (row_major 18 2 2) (fm [[fl 2 0; fl 7 0]; [nan64; fl 3 0]]) (fm [[fl 0 0; fl 0 0]; [fl 1 0; fl 1 0]]) (fm [[fl 1 0; fl 2 0]; [fl 3 0; fl 4 0]])); conc|].
  intros _ m' [(r & K1 & (Q1 & Q2)) _]. exists r. split; [exact K1|]. apply (Q2 1 1 0); side.
Qed.

(** C = A B, A symmetric *)
Theorem C88_symm_left : forall (O : ops) (bad : O -> Prop), absorbing O bad -> forall (m : mem O) A t B C a b,
  ext0 A = ext1 A -> ext0 C = ext0 A -> ext1 A = ext0 B -> ext1 C = ext1 B ->
  mat_holds_on m A (in_tri t) a -> mat_holds m B b -> mwritable C -> allocated m (mcells C) ->
  disjoint (mcells_on A (in_tri t)) (mcells C) -> disjoint (mcells B) (mcells C) ->
  succeeds (symmetric_matrix_product_left A t B C) m (fun _ m' =>
    (exists r, mat_holds m' C r /\
     (forall i j k, i < ext0 C -> j < ext1 C -> k < ext1 A -> bad (b k j) -> bad (r i j)) /\
     (forall i j k, i < ext0 C -> j < ext1 C -> k < ext1 A -> in_tri t i k -> bad (a i k) -> bad (r i j) /\ bad (r k j))) /\
    changes_only m m' (mcells C)).
Proof. exact (@symm_left_bad). Qed.
Print Assumptions C88_symm_left.
Example C88_symm_left_case :
  succeeds (symmetric_matrix_product_left (row_major 0 2 2) Lower (row_major 4 2 2) (row_major 14 2 2)) nan_mem (fun _ m' => exists r, mat_holds m' (row_major 14 2 2) r /\ is_nan (r 1 1 : F64) = true /\ is_nan (r 0 1 : F64) = true).
Proof.
  eapply wp_conseq; [apply (C88_symm_left F64 _ (C88_nan _ _ _ _) nan_mem (row_major 0 2 2) Lower (row_major 4 2 2) (row_major 14 2 2) (fm [[fl 2 0; fl 7 0]; [nan64; fl 3 0]]) (fm [[fl 0 0; fl 0 0]; [fl 1 0; fl 1 0]])); conc|].
  intros _ m' [(r & K1 & (Q1 & Q2)) _]. exists r. split; [exact K1|]. apply (Q2 1 1 0); side.
Qed.

(** C = B A, A symmetric *)
Theorem C88_symm_right : forall (O : ops) (bad : O -> Prop), absorbing O bad -> forall (m : mem O) B A t C a b,
  ext0 A = ext1 A -> ext0 C = ext0 B -> ext1 B = ext0 A -> ext1 C = ext1 A ->
  mat_holds_on m A (in_tri t) a -> mat_holds m B b -> mwritable C -> allocated m (mcells C) ->
  disjoint (mcells_on A (in_tri t)) (mcells C) -> disjoint (mcells B) (mcells C) ->
  succeeds (symmetric_matrix_product_right B A t C) m (fun _ m' =>
    (exists r, mat_holds m' C r /\
     (forall i j k, i < ext0 C -> j < ext1 C -> k < ext1 A -> bad (b i k) -> bad (r i j)) /\
     (forall i j k, i < ext0 C -> j < ext1 C -> k < ext1 A -> in_tri t k j -> bad (a k j) -> bad (r i j) /\ bad (r i k))) /\
    changes_only m m' (mcells C)).
Proof. exact (@symm_right_bad). Qed.
Print Assumptions C88_symm_right.
Example C88_symm_right_case :
  succeeds (symmetric_matrix_product_right (row_major 4 2 2) (row_major 0 2 2) Lower (row_major 14 2 2)) nan_mem (fun _ m' => exists r, mat_holds m' (row_major 14 2 2) r /\ is_nan (r 0 0 : F64) = true /\ is_nan (r 0 1 : F64) = true).
Proof.
  eapply wp_conseq; [apply (C88_symm_right F64 _ (C88_nan _ _ _ _) nan_mem (row_major 4 2 2) (row_major 0 2 2) Lower (row_major 14 2 2) (fm [[fl 2 0; fl 7 0]; [nan64; fl 3 0]]) (fm [[fl 0 0; fl 0 0]; [fl 1 0; fl 1 0]])); conc|].
  intros _ m' [(r & K1 & (Q1 & Q2)) _]. exists r. split; [exact K1|]. apply (Q2 0 0 1); side.
Qed.

(** C = A B, A Hermitian *)
Theorem C88_hemm_left : forall (O : ops) (bad : O -> Prop), absorbing O bad -> forall (m : mem O) A t B C a b,
  ext0 A = ext1 A -> ext0 C = ext0 A -> ext1 A = ext0 B -> ext1 C = ext1 B ->
  mat_holds_on m A (in_tri t) a -> mat_holds m B b -> mwritable C -> allocated m (mcells C) ->
  disjoint (mcells_on A (in_tri t)) (mcells C) -> disjoint (mcells B) (mcells C) ->
  succeeds (hermitian_matrix_product_left A t B C) m (fun _ m' =>
    (exists r, mat_holds m' C r /\
     (forall i j k, i < ext0 C -> j < ext1 C -> k < ext1 A -> bad (b k j) -> bad (r i j)) /\
     (forall i j k, i < ext0 C -> j < ext1 C -> k < ext1 A -> in_tri t i k -> bad (a i k) -> bad (r i j) /\ bad (r k j))) /\
    changes_only m m' (mcells C)).
Proof. exact (@hemm_left_bad). Qed.
Print Assumptions C88_hemm_left.
Example C88_hemm_left_case :
  succeeds (hermitian_matrix_product_left (row_major 0 2 2) Lower (row_major 4 2 2) (row_major 14 2 2)) nan_mem (fun _ m' => exists r, mat_holds m' (row_major 14 2 2) r /\ is_nan (r 1 1 : F64) = true /\ is_nan (r 0 1 : F64) = true).
Proof.
  eapply wp_conseq; [apply (C88_hemm_left F64 _ (C88_nan _ _ _ _) nan_mem (row_major 0 2 2) Lower (row_major 4 2 2) (row_major 14 2 2) (fm [[fl 2 0; fl 7 0]; [nan64; fl 3 0]]) (fm [[fl 0 0; fl 0 0]; [fl 1 0; fl 1 0]])); conc|].
  intros _ m' [(r & K1 & (Q1 & Q2)) _]. exists r. split; [exact K1|]. apply (Q2 1 1 0); side.
Qed.

(** C = B A, A Hermitian *)
Theorem C88_hemm_right : forall (O : ops) (bad : O -> Prop), absorbing O bad -> forall (m : mem O) B A t C a b,
  ext0 A = ext1 A -> ext0 C = ext0 B -> ext1 B = ext0 A -> ext1 C = ext1 A ->
  mat_holds_on m A (in_tri t) a -> mat_holds m B b -> mwritable C -> allocated m (mcells C) ->
  disjoint (mcells_on A (in_tri t)) (mcells C) -> disjoint (mcells B) (mcells C) ->
  succeeds (hermitian_matrix_product_right B A t C) m (fun _ m' =>
    (exists r, mat_holds m' C r /\
     (forall i j k, i < ext0 C -> j < ext1 C -> k < ext1 A -> bad (b i k) -> bad (r i j)) /\
     (forall i j k, i < ext0 C -> j < ext1 C -> k < ext1 A -> in_tri t k j -> bad (a k j) -> bad (r i j) /\ bad (r i k))) /\
    changes_only m m' (mcells C)).
Proof. exact (@hemm_right_bad). Qed.
Print Assumptions C88_hemm_right.
Example C88_hemm_right_case :
  succeeds (hermitian_matrix_product_right (row_major 4 2 2) (row_major 0 2 2) Lower (row_major 14 2 2)) nan_mem (fun _ m' => exists r, mat_holds m' (row_major 14 2 2) r /\ is_nan (r 0 0 : F64) = true /\ is_nan (r 0 1 : F64) = true).
Proof.
  eapply wp_conseq; [apply (C88_hemm_right F64 _ (C88_nan _ _ _ _) nan_mem (row_major 4 2 2) (row_major 0 2 2) Lower (row_major 14 2 2) (fm [[fl 2 0; fl 7 0]; [nan64; fl 3 0]]) (fm [[fl 0 0; fl 0 0]; [fl 1 0; fl 1 0]])); conc|].
  intros _ m' [(r & K1 & (Q1 & Q2)) _]. exists r. split; [exact K1|]. apply (Q2 0 0 1); side.
Qed.

(** C = A B, A triangular *)
Theorem C88_trmm_left : forall (O : ops) (bad : O -> Prop), absorbing O bad -> forall ty (m : mem O) A t d B C a b,
  fits ty (ext0 C) ->
  ext0 A = ext1 A -> ext0 C = ext0 A -> ext1 A = ext0 B -> ext1 C = ext1 B ->
  mat_holds_on m A (stored t d) a -> mat_holds m B b -> mwritable C -> allocated m (mcells C) ->
  disjoint (mcells_on A (stored t d)) (mcells C) -> disjoint (mcells B) (mcells C) ->
  succeeds (triangular_matrix_product_left ty A t d B C) m (fun _ m' =>
    (exists r, mat_holds m' C r /\
     (forall i j k, i < ext0 C -> j < ext1 C -> k < ext1 A -> in_tri t i k -> bad (b k j) -> bad (r i j)) /\
     (forall i j k, i < ext0 C -> j < ext1 C -> k < ext1 A -> stored t d i k -> bad (a i k) -> bad (r i j))) /\
    changes_only m m' (mcells C)).
Proof. exact (@trmm_left_bad). Qed.
Print Assumptions C88_trmm_left.
Example C88_trmm_left_case :
  succeeds (triangular_matrix_product_left I32 (row_major 0 2 2) Lower Explicit (row_major 4 2 2) (row_major 14 2 2)) nan_mem (fun _ m' => exists r, mat_holds m' (row_major 14 2 2) r /\ is_nan (r 1 1 : F64) = true).
Proof.
  eapply wp_conseq; [apply (C88_trmm_left F64 _ (C88_nan _ _ _ _) I32 nan_mem (row_major 0 2 2) Lower Explicit (row_major 4 2 2) (row_major 14 2 2) (fm [[fl 2 0; fl 7 0]; [nan64; fl 3 0]]) (fm [[fl 0 0; fl 0 0]; [fl 1 0; fl 1 0]])); conc|].
  intros _ m' [(r & K1 & (Q1 & Q2)) _]. exists r. split; [exact K1|]. apply (Q2 1 1 0); side.
Qed.

(** C = B A, A triangular *)
Theorem C88_trmm_right : forall (O : ops) (bad : O -> Prop), absorbing O bad -> forall ty (m : mem O) B A t d C a b,
  fits ty (ext1 C) ->
  ext0 A = ext1 A -> ext0 C = ext0 B -> ext1 B = ext0 A -> ext1 C = ext1 A ->
  mat_holds_on m A (stored t d) a -> mat_holds m B b -> mwritable C -> allocated m (mcells C) ->
  disjoint (mcells_on A (stored t d)) (mcells C) -> disjoint (mcells B) (mcells C) ->
  succeeds (triangular_matrix_product_right ty B A t d C) m (fun _ m' =>
    (exists r, mat_holds m' C r /\
     (forall i j k, i < ext0 C -> j < ext1 C -> k < ext1 A -> in_tri t k j -> bad (b i k) -> bad (r i j)) /\
     (forall i j k, i < ext0 C -> j < ext1 C -> k < ext1 A -> stored t d k j -> bad (a k j) -> bad (r i j))) /\
    changes_only m m' (mcells C)).
Proof. exact (@trmm_right_bad). Qed.
Print Assumptions C88_trmm_right.
Example C88_trmm_right_case :
  succeeds (triangular_matrix_product_right I32 (row_major 4 2 2) (row_major 0 2 2) Lower Explicit (row_major 14 2 2)) nan_mem (fun _ m' => exists r, mat_holds m' (row_major 14 2 2) r /\ is_nan (r 0 0 : F64) = true).
Proof.
  eapply wp_conseq; [apply (C88_trmm_right F64 _ (C88_nan _ _ _ _) I32 nan_mem (row_major 4 2 2) (row_major 0 2 2) Lower Explicit (row_major 14 2 2) (fm [[fl 2 0; fl 7 0]; [nan64; fl 3 0]]) (fm [[fl 0 0; fl 0 0]; [fl 1 0; fl 1 0]])); conc|].
  intros _ m' [(r & K1 & (Q1 & Q2)) _]. exists r. split; [exact K1|]. apply (Q2 0 0 1); side.
Qed.

(** C = A C, A triangular *)
Theorem C88_trmm_left_inplace : forall (O : ops) (bad : O -> Prop), absorbing O bad -> forall (m : mem O) A t d C a c,
  ext0 A = ext1 A -> ext0 C = ext0 A ->
  mat_holds_on m A (stored t d) a -> mat_holds m C c -> mwritable C ->
  disjoint (mcells_on A (stored t d)) (mcells C) ->
  succeeds (triangular_matrix_left_product A t d C) m (fun _ m' =>
    (exists r, mat_holds m' C r /\
     (forall i j k, i < ext0 C -> j < ext1 C -> k < ext1 A -> in_tri t i k -> bad (c k j) -> bad (r i j)) /\
     (forall i j k, i < ext0 C -> j < ext1 C -> k < ext1 A -> stored t d i k -> bad (a i k) -> bad (r i j))) /\
    changes_only m m' (mcells C)).
Proof. exact (@trmm_left_inplace_bad). Qed.
Print Assumptions C88_trmm_left_inplace.
Example C88_trmm_left_inplace_case :
  succeeds (triangular_matrix_left_product (row_major 0 2 2) Lower Explicit (row_major 4 2 2)) nan_mem (fun _ m' => exists r, mat_holds m' (row_major 4 2 2) r /\ is_nan (r 1 1 : F64) = true).
Proof.
  eapply wp_conseq; [apply (C88_trmm_left_inplace F64 _ (C88_nan _ _ _ _) nan_mem (row_major 0 2 2) Lower Explicit (row_major 4 2 2) (fm [[fl 2 0; fl 7 0]; [nan64; fl 3 0]]) (fm [[fl 0 0; fl 0 0]; [fl 1 0; fl 1 0]])); conc|].
  intros _ m' [(r & K1 & (Q1 & Q2)) _]. exists r. split; [exact K1|]. apply (Q2 1 1 0); side.
Qed.

(** C = C A, A triangular *)
Theorem C88_trmm_right_inplace : forall (O : ops) (bad : O -> Prop), absorbing O bad -> forall (m : mem O) A t d C a c,
  ext0 A = ext1 A -> ext1 C = ext0 A ->
  mat_holds_on m A (stored t d) a -> mat_holds m C c -> mwritable C ->
  disjoint (mcells_on A (stored t d)) (mcells C) ->
  succeeds (triangular_matrix_right_product A t d C) m (fun _ m' =>
    (exists r, mat_holds m' C r /\
     (forall i j k, i < ext0 C -> j < ext1 C -> k < ext1 A -> in_tri t k j -> bad (c i k) -> bad (r i j)) /\
     (forall i j k, i < ext0 C -> j < ext1 C -> k < ext1 A -> stored t d k j -> bad (a k j) -> bad (r i j))) /\
    changes_only m m' (mcells C)).
Proof. exact (@trmm_right_inplace_bad). Qed.
Print Assumptions C88_trmm_right_inplace.
Example C88_trmm_right_inplace_case :
  succeeds (triangular_matrix_right_product (row_major 0 2 2) Lower Explicit (row_major 4 2 2)) nan_mem (fun _ m' => exists r, mat_holds m' (row_major 4 2 2) r /\ is_nan (r 0 0 : F64) = true).
Proof.
  eapply wp_conseq; [apply (C88_trmm_right_inplace F64 _ (C88_nan _ _ _ _) nan_mem (row_major 0 2 2) Lower Explicit (row_major 4 2 2) (fm [[fl 2 0; fl 7 0]; [nan64; fl 3 0]]) (fm [[fl 0 0; fl 0 0]; [fl 1 0; fl 1 0]])); conc|].
  intros _ m' [(r & K1 & (Q1 & Q2)) _]. exists r. split; [exact K1|]. apply (Q2 0 0 1); side.
Qed.

(** C += A A^T on one triangle *)
Theorem C88_syrk : forall (O : ops) (bad : O -> Prop), absorbing O bad -> forall (m : mem O) A C t a c,
  ext0 C = ext1 C -> ext0 A = ext0 C ->
  mat_holds m A a -> mat_holds_on m C (in_tri t) c -> mwritable_on C (in_tri t) ->
  disjoint (mcells A) (mcells_on C (in_tri t)) ->
  succeeds (symmetric_matrix_rank_k_update A C t) m (fun _ m' =>
    (exists r, mat_holds_on m' C (in_tri t) r /\
     (forall i j, i < ext0 C -> j < ext1 C -> in_tri t i j -> bad (c i j) -> bad (r i j)) /\
     (forall i j k, i < ext0 C -> j < ext1 C -> in_tri t i j -> k < ext1 A -> bad (a i k) \/ bad (a j k) -> bad (r i j))) /\
    changes_only m m' (mcells_on C (in_tri t))).
Proof. exact (@syrk_bad). Qed.
Print Assumptions C88_syrk.
Example C88_syrk_case :
  succeeds (symmetric_matrix_rank_k_update (row_major 0 2 2) (row_major 14 2 2) Lower) nan_mem (fun _ m' => exists r, mat_holds_on m' (row_major 14 2 2) (in_tri Lower) r /\ is_nan (r 1 0 : F64) = true).
Proof.
  eapply wp_conseq; [apply (C88_syrk F64 _ (C88_nan _ _ _ _) nan_mem (row_major 0 2 2) (row_major 14 2 2) Lower (fm [[fl 2 0; fl 7 0]; [nan64; fl 3 0]]) (fm [[fl 1 0; fl 2 0]; [fl 3 0; fl 4 0]])); conc|].
  intros _ m' [(r & K1 & (Q1 & Q2)) _]. exists r. split; [exact K1|]. apply (Q2 1 0 0); side.
Qed.

(** C += A A^H on one triangle *)
Theorem C88_herk : forall (O : ops) (bad : O -> Prop), absorbing O bad -> forall (m : mem O) A C t a c,
  ext0 C = ext1 C -> ext0 A = ext0 C ->
  mat_holds m A a -> mat_holds_on m C (in_tri t) c -> mwritable_on C (in_tri t) ->
  disjoint (mcells A) (mcells_on C (in_tri t)) ->
  succeeds (hermitian_matrix_rank_k_update A C t) m (fun _ m' =>
    (exists r, mat_holds_on m' C (in_tri t) r /\
     (forall i j, i < ext0 C -> j < ext1 C -> in_tri t i j -> bad (c i j) -> bad (r i j)) /\
     (forall i j k, i < ext0 C -> j < ext1 C -> in_tri t i j -> k < ext1 A -> bad (a i k) \/ bad (a j k) -> bad (r i j))) /\
    changes_only m m' (mcells_on C (in_tri t))).
Proof. exact (@herk_bad). Qed.
Print Assumptions C88_herk.
Example C88_herk_case :
  succeeds (hermitian_matrix_rank_k_update (row_major 0 2 2) (row_major 14 2 2) Lower) nan_mem (fun _ m' => exists r, mat_holds_on m' (row_major 14 2 2) (in_tri Lower) r /\ is_nan (r 1 0 : F64) = true).
Proof.
  eapply wp_conseq; [apply (C88_herk F64 _ (C88_nan _ _ _ _) nan_mem (row_major 0 2 2) (row_major 14 2 2) Lower (fm [[fl 2 0; fl 7 0]; [nan64; fl 3 0]]) (fm [[fl 1 0; fl 2 0]; [fl 3 0; fl 4 0]])); conc|].
  intros _ m' [(r & K1 & (Q1 & Q2)) _]. exists r. split; [exact K1|]. apply (Q2 1 0 0); side.
Qed.

(** C += A B^T + B A^T on one triangle *)
Theorem C88_syr2k : forall (O : ops) (bad : O -> Prop), absorbing O bad -> forall (m : mem O) A B C t a b c,
  ext0 C = ext1 C -> ext0 A = ext0 C -> ext0 B = ext0 C -> ext1 B = ext1 A ->
  mat_holds m A a -> mat_holds m B b -> mat_holds_on m C (in_tri t) c -> mwritable_on C (in_tri t) ->
  disjoint (mcells A) (mcells_on C (in_tri t)) -> disjoint (mcells B) (mcells_on C (in_tri t)) ->
  succeeds (symmetric_matrix_rank_2k_update A B C t) m (fun _ m' =>
    (exists r, mat_holds_on m' C (in_tri t) r /\
     (forall i j, i < ext0 C -> j < ext1 C -> in_tri t i j -> bad (c i j) -> bad (r i j)) /\
     (forall i j k, i < ext0 C -> j < ext1 C -> in_tri t i j -> k < ext1 A ->
       bad (a i k) \/ bad (a j k) \/ bad (b i k) \/ bad (b j k) -> bad (r i j))) /\
    changes_only m m' (mcells_on C (in_tri t))).
Proof. exact (@syr2k_bad). Qed.
Print Assumptions C88_syr2k.
Example C88_syr2k_case :
  succeeds (symmetric_matrix_rank_2k_update (row_major 0 2 2) (row_major 4 2 2) (row_major 14 2 2) Lower) nan_mem (fun _ m' => exists r, mat_holds_on m' (row_major 14 2 2) (in_tri Lower) r /\ is_nan (r 1 0 : F64) = true).
Proof.
  eapply wp_conseq; [apply (C88_syr2k F64 _ (C88_nan _ _ _ _) nan_mem (row_major 0 2 2) (row_major 4 2 2) (row_major 14 2 2) Lower (fm [[fl 2 0; fl 7 0]; [nan64; fl 3 0]]) (fm [[fl 0 0; fl 0 0]; [fl 1 0; fl 1 0]]) (fm [[fl 1 0; fl 2 0]; [fl 3 0; fl 4 0]])); conc|].
  intros _ m' [(r & K1 & (Q1 & Q2)) _]. exists r. split; [exact K1|]. apply (Q2 1 0 0); side.
Qed.

(** C += A B^H + B A^H on one triangle *)
Theorem C88_her2k : forall (O : ops) (bad : O -> Prop), absorbing O bad -> forall (m : mem O) A B C t a b c,
  ext0 C = ext1 C -> ext0 A = ext0 C -> ext0 B = ext0 C -> ext1 B = ext1 A ->
  mat_holds m A a -> mat_holds m B b -> mat_holds_on m C (in_tri t) c -> mwritable_on C (in_tri t) ->
  disjoint (mcells A) (mcells_on C (in_tri t)) -> disjoint (mcells B) (mcells_on C (in_tri t)) ->
  succeeds (hermitian_matrix_rank_2k_update A B C t) m (fun _ m' =>
    (exists r, mat_holds_on m' C (in_tri t) r /\
     (forall i j, i < ext0 C -> j < ext1 C -> in_tri t i j -> bad (c i j) -> bad (r i j)) /\
     (forall i j k, i < ext0 C -> j < ext1 C -> in_tri t i j -> k < ext1 A ->
       bad (a i k) \/ bad (a j k) \/ bad (b i k) \/ bad (b j k) -> bad (r i j))) /\
    changes_only m m' (mcells_on C (in_tri t))).
Proof. exact (@her2k_bad). Qed.
Print Assumptions C88_her2k.
Example C88_her2k_case :
  succeeds (hermitian_matrix_rank_2k_update (row_major 0 2 2) (row_major 4 2 2) (row_major 14 2 2) Lower) nan_mem (fun _ m' => exists r, mat_holds_on m' (row_major 14 2 2) (in_tri Lower) r /\ is_nan (r 1 0 : F64) = true).
Proof.
  eapply wp_conseq; [apply (C88_her2k F64 _ (C88_nan _ _ _ _) nan_mem (row_major 0 2 2) (row_major 4 2 2) (row_major 14 2 2) Lower (fm [[fl 2 0; fl 7 0]; [nan64; fl 3 0]]) (fm [[fl 0 0; fl 0 0]; [fl 1 0; fl 1 0]]) (fm [[fl 1 0; fl 2 0]; [fl 3 0; fl 4 0]])); conc|].
  intros _ m' [(r & K1 & (Q1 & Q2)) _]. exists r. split; [exact K1|]. apply (Q2 1 0 0); side.
Qed.

(** T x = b: an unknown depends on its row, and on all of whatever the preceding unknowns depend on *)
Theorem C88_trsv : forall (O : ops) (bad : O -> Prop), absorbing O bad -> forall ty (m : mem O) A t d B X a b,
  fits ty (ext0 A) -> (ext0 A = 0 -> t = Upper -> ty <> U32) ->
  ext0 A = ext1 A -> vext B = ext0 A -> vext X = ext0 A ->
  mat_holds_on m A (stored t d) a -> vec_holds m B b -> vwritable X -> allocated m (vcells X) ->
  disjoint (mcells_on A (stored t d)) (vcells X) -> disjoint_or_aligned_v B X ->
  succeeds (triangular_matrix_vector_solve ty A t d B X) m (fun _ m' =>
    (exists r, vec_holds m' X r /\
     (forall i k, i < ext0 A -> k < ext0 A -> in_tri t i k -> bad (b k) -> bad (r i)) /\
     (forall i k l, i < ext0 A -> k < ext0 A -> l < ext0 A -> in_tri t i k -> stored t d k l -> bad (a k l) -> bad (r i))) /\
    changes_only m m' (vcells X)).
Proof. exact (@trsv_bad). Qed.
Print Assumptions C88_trsv.
(** b_0 = 0, so x_0 = 0, and NaN * 0 spoils x_1 *)
Example C88_trsv_case :
  succeeds (triangular_matrix_vector_solve I32 (row_major 0 2 2) Lower Explicit (vec_at 8 2) (vec_at 10 2)) nan_mem (fun _ m' => exists r, vec_holds m' (vec_at 10 2) r /\ is_nan (r 1 : F64) = true).
Proof.
  eapply wp_conseq; [apply (C88_trsv F64 _ (C88_nan _ _ _ _) I32 nan_mem (row_major 0 2 2) Lower Explicit (vec_at 8 2) (vec_at 10 2) (fm [[fl 2 0; fl 7 0]; [nan64; fl 3 0]]) (fv [fl 0 0; fl 1 0])); conc|].
  intros _ m' [(r & K1 & (Q1 & Q2)) _]. exists r. split; [exact K1|]. apply (Q2 1 1 0); side.
Qed.

(** T X = B *)
Theorem C88_trsm_left : forall (O : ops) (bad : O -> Prop), absorbing O bad -> forall ty (m : mem O) A t d B X a b,
  fits ty (ext0 A) -> (ext0 A = 0 -> t = Upper -> ty <> U32) ->
  ext0 A = ext1 A -> ext0 B = ext0 A -> ext0 X = ext0 A -> ext1 X = ext1 B ->
  mat_holds_on m A (stored t d) a -> mat_holds m B b -> mwritable X -> allocated m (mcells X) ->
  disjoint (mcells_on A (stored t d)) (mcells X) -> disjoint_or_aligned_m B X ->
  succeeds (triangular_matrix_matrix_left_solve ty A t d B X) m (fun _ m' =>
    (exists r, mat_holds m' X r /\
     (forall i j k, i < ext0 X -> j < ext1 X -> k < ext0 A -> in_tri t i k -> bad (b k j) -> bad (r i j)) /\
     (forall i j k l, i < ext0 X -> j < ext1 X -> k < ext0 A -> l < ext0 A -> in_tri t i k -> stored t d k l -> bad (a k l) -> bad (r i j))) /\
    changes_only m m' (mcells X)).
Proof. exact (@trsm_left_bad). Qed.
Print Assumptions C88_trsm_left.
Example C88_trsm_left_case :
  succeeds (triangular_matrix_matrix_left_solve I32 (row_major 0 2 2) Lower Explicit (row_major 4 2 2) (row_major 14 2 2)) nan_mem (fun _ m' => exists r, mat_holds m' (row_major 14 2 2) r /\ is_nan (r 1 1 : F64) = true).
Proof.
  eapply wp_conseq; [apply (C88_trsm_left F64 _ (C88_nan _ _ _ _) I32 nan_mem (row_major 0 2 2) Lower Explicit (row_major 4 2 2) (row_major 14 2 2) (fm [[fl 2 0; fl 7 0]; [nan64; fl 3 0]]) (fm [[fl 0 0; fl 0 0]; [fl 1 0; fl 1 0]])); conc|].
  intros _ m' [(r & K1 & (Q1 & Q2)) _]. exists r. split; [exact K1|]. apply (Q2 1 1 1 0); side.
Qed.

(** X T = B *)
Theorem C88_trsm_right : forall (O : ops) (bad : O -> Prop), absorbing O bad -> forall ty (m : mem O) A t d B X a b,
  (t = Lower -> fits (make_signed ty) (ext0 A)) ->
  ext0 A = ext1 A -> ext1 B = ext0 A -> ext1 X = ext0 A -> ext0 X = ext0 B ->
  mat_holds_on m A (stored t d) a -> mat_holds m B b -> mwritable X -> allocated m (mcells X) ->
  disjoint (mcells_on A (stored t d)) (mcells X) -> disjoint_or_aligned_m B X ->
  succeeds (triangular_matrix_matrix_right_solve ty A t d B X) m (fun _ m' =>
    (exists r, mat_holds m' X r /\
     (forall i j k, i < ext0 X -> j < ext1 X -> k < ext0 A -> in_tri t k j -> bad (b i k) -> bad (r i j)) /\
     (forall i j k l, i < ext0 X -> j < ext1 X -> k < ext0 A -> l < ext0 A -> in_tri t k j -> stored t d l k -> bad (a l k) -> bad (r i j))) /\
    changes_only m m' (mcells X)).
Proof. exact (@trsm_right_bad). Qed.
Print Assumptions C88_trsm_right.
Example C88_trsm_right_case :
  succeeds (triangular_matrix_matrix_right_solve I32 (row_major 0 2 2) Lower Explicit (row_major 4 2 2) (row_major 14 2 2)) nan_mem (fun _ m' => exists r, mat_holds m' (row_major 14 2 2) r /\ is_nan (r 0 0 : F64) = true).
Proof.
  eapply wp_conseq; [apply (C88_trsm_right F64 _ (C88_nan _ _ _ _) I32 nan_mem (row_major 0 2 2) Lower Explicit (row_major 4 2 2) (row_major 14 2 2) (fm [[fl 2 0; fl 7 0]; [nan64; fl 3 0]]) (fm [[fl 0 0; fl 0 0]; [fl 1 0; fl 1 0]])); conc|].
  intros _ m' [(r & K1 & (Q1 & Q2)) _]. exists r. split; [exact K1|]. apply (Q2 0 0 0 1); side.
Qed.


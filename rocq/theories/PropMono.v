(** C102: sums and products of larger data are larger, also when rounded: where the result for bounds on the magnitudes of
    the data is finite, the result for the data is finite and bounded by it. *)
From Coq Require Import List Arith ZArith Reals Lia Bool.
From Flocq Require Import Core.Core IEEE754.BinarySingleNaN.
From Verif Require Import Mem Scalar View Spec SpecSub SpecInp SpecMono Idx Norm Ieee Blas1 Blas2 Blas3 Wp PfMono PfMonoI Inst PropFloat.
Import ListNotations.
Local Open Scope nat_scope.
Local Open Scope sc_scope.

(** In every format, rounded sums and products preserve |x| <= y ... *)
Theorem C102_dominated : forall prec emax (Hp : FLX.Prec_gt_0 prec) (He : Prec_lt_emax prec emax),
  monotone (ieee_ops prec emax Hp He) (@dominated prec emax).
Proof. exact dominated_monotone. Qed.
Print Assumptions C102_dominated.
(** ... and 0 <= x <= y. *)
Theorem C102_nonneg : forall prec emax (Hp : FLX.Prec_gt_0 prec) (He : Prec_lt_emax prec emax),
  monotone (ieee_ops prec emax Hp He) (@nonneg_below prec emax).
Proof. exact nonneg_monotone. Qed.
Print Assumptions C102_nonneg.
(** |(-3) * 5 + 7| <= 3 * 5 + 8 *)
Example C102_dominated_case : (Rabs (B2R (add (mul (fl (-3) 0 : F64) (fl 5 0)) (fl 7 0) : F64)) <= B2R (add (mul (fl 3 0 : F64) (fl 5 0)) (fl 8 0) : F64))%R.
Proof.
  apply (mn_add (C102_dominated _ _ _ _)); [apply (mn_mul (C102_dominated _ _ _ _))| |reflexivity]; apply dominated_dec; vm_compute; auto.
Qed.
Example C102_nonneg_case : nonneg_below (mul (fl 3 0 : F64) (fl 1 0) : F64) (mul (fl 3 0 : F64) (fl 1 0) : F64).
Proof.
  apply (mn_mul (C102_nonneg _ _ _ _)); intros _; (split; [reflexivity|]); unfold fl; simpl; split;
  try apply Rle_refl; apply F2R_ge_0; simpl; lia.
Qed.

(** Used below, in binary64: A = [2 -7; -5 3], B = [0 -1; 1 4], x = (-1, 3), y = (4, -5), w = (2, -6), C = [1 -2; 3 -4], D = 0; and
    bounds A = [2 8; 5 3], B = [1 1; 1 4], x = (1, 3), y = (4, 6), w = (2, 6), C = [1 2; 3 5], D = 0. *)
Definition data_mem : mem F64 := (* test data *)
  mem_of [fl (2) 0; fl (-7) 0; fl (-5) 0; fl (3) 0; fl (0) 0; fl (-1) 0; fl (1) 0; fl (4) 0; fl (-1) 0; fl (3) 0; fl (4) 0; fl (-5) 0; fl (2) 0; fl (-6) 0; fl (1) 0; fl (-2) 0; fl (3) 0; fl (-4) 0; fl 0 0; fl 0 0; fl 0 0; fl 0 0].
Definition bound_mem : mem F64 := (* test data *)
  mem_of [fl (2) 0; fl (8) 0; fl (5) 0; fl (3) 0; fl (1) 0; fl (1) 0; fl (1) 0; fl (4) 0; fl (1) 0; fl (3) 0; fl (4) 0; fl (6) 0; fl (2) 0; fl (6) 0; fl (1) 0; fl (2) 0; fl (3) 0; fl (5) 0; fl 0 0; fl 0 0; fl 0 0; fl 0 0].
Ltac cmp := apply dominated_dec; vm_compute; reflexivity.
Ltac conc := unfold data_mem, bound_mem;
  match goal with
  | |- dominated _ _ => cmp
  | |- vec_le _ _ _ _ => let i := fresh in let Hi := fresh in intros i Hi; do 2 (destruct i as [|i]; [cmp|]); simpl in Hi; lia
  | |- mat_le _ _ _ _ _ => let i := fresh in let j := fresh in let Hi := fresh in let Hj := fresh in
      intros i j Hi Hj _; do 2 (destruct i as [|i]; [do 2 (destruct j as [|j]; [cmp|]); simpl in Hj; lia|]); simpl in Hi; lia
  | |- same_length _ _ => reflexivity
  | |- same_shape _ _ => split; reflexivity
  | _ => concrete; try solve [intros; reflexivity | vm_compute; split; discriminate | discriminate | intros; discriminate]
  end.

(** x = alpha x *)
Theorem C102_scale : forall (O : ops) (le : O -> O -> Prop), monotone O le -> forall (m1 m2 : mem O) (alpha1 alpha2 : O) x1 x2 f1 f2,
  vec_holds m1 x1 f1 -> vwritable x1 ->
  vec_holds m2 x2 f2 -> vwritable x2 ->
  same_length x1 x2 ->
  vec_le le x1 f1 f2 -> le alpha1 alpha2 ->
  succeeds (scale_1 alpha1 x1) m1 (fun _ m1' =>
  succeeds (scale_1 alpha2 x2) m2 (fun _ m2' =>
    exists r1 r2, vec_holds m1' x1 r1 /\ vec_holds m2' x2 r2 /\ vec_le le x1 r1 r2)).
Proof. exact (@scale_le). Qed.
Print Assumptions C102_scale.
Example C102_scale_case :
  succeeds (scale_1 (fl (-3) 0) (vec_at 12 2)) data_mem (fun _ m1' =>
  succeeds (scale_1 (fl 3 0) (vec_at 12 2)) bound_mem (fun _ m2' => exists r1 r2, vec_holds m1' (vec_at 12 2) r1 /\ vec_holds m2' (vec_at 12 2) r2 /\ dominated (r1 1 : F64) (r2 1 : F64))).
Proof.
  eapply wp_conseq; [apply (C102_scale F64 _ (C102_dominated _ _ _ _) data_mem bound_mem (fl (-3) 0) (fl 3 0) (vec_at 12 2) (vec_at 12 2) (fv [fl (2) 0; fl (-6) 0]) (fv [fl (2) 0; fl (6) 0])); conc|].
  intros u m1' K. eapply wp_conseq; [exact K|]. intros u2 m2' (r1 & r2 & K1 & K2 & K3). exists r1, r2. split; [exact K1|split; [exact K2|]].
  apply K3; simpl; lia.
Qed.

(** the same for a matrix *)
Theorem C102_scale_2 : forall (O : ops) (le : O -> O -> Prop), monotone O le -> forall (m1 m2 : mem O) (alpha1 alpha2 : O) x1 x2 f1 f2,
  mat_holds m1 x1 f1 -> mwritable x1 ->
  mat_holds m2 x2 f2 -> mwritable x2 ->
  same_shape x1 x2 ->
  mat_le le x1 all2 f1 f2 -> le alpha1 alpha2 ->
  succeeds (scale_2 alpha1 x1) m1 (fun _ m1' =>
  succeeds (scale_2 alpha2 x2) m2 (fun _ m2' =>
    exists r1 r2, mat_holds m1' x1 r1 /\ mat_holds m2' x2 r2 /\ mat_le le x1 all2 r1 r2)).
Proof. exact (@scale_2_le). Qed.
Print Assumptions C102_scale_2.
Example C102_scale_2_case :
  succeeds (scale_2 (fl (-3) 0) (row_major 0 2 2)) data_mem (fun _ m1' =>
  succeeds (scale_2 (fl 3 0) (row_major 0 2 2)) bound_mem (fun _ m2' => exists r1 r2, mat_holds m1' (row_major 0 2 2) r1 /\ mat_holds m2' (row_major 0 2 2) r2 /\ dominated (r1 1 0 : F64) (r2 1 0 : F64))).
Proof.
  eapply wp_conseq; [apply (C102_scale_2 F64 _ (C102_dominated _ _ _ _) data_mem bound_mem (fl (-3) 0) (fl 3 0) (row_major 0 2 2) (row_major 0 2 2) (fm [[fl (2) 0; fl (-7) 0]; [fl (-5) 0; fl (3) 0]]) (fm [[fl (2) 0; fl (8) 0]; [fl (5) 0; fl (3) 0]])); conc|].
  intros u m1' K. eapply wp_conseq; [exact K|]. intros u2 m2' (r1 & r2 & K1 & K2 & K3). exists r1, r2. split; [exact K1|split; [exact K2|]].
  apply K3; [simpl; lia|simpl; lia|first [exact I | simpl; lia]].
Qed.

(** z = x + y *)
Theorem C102_add : forall (O : ops) (le : O -> O -> Prop), monotone O le -> forall (m1 m2 : mem O) x1 x2 y1 y2 z1 z2 f1 f2 g1 g2,
  vext x1 = vext z1 -> vext y1 = vext z1 -> vec_holds m1 x1 f1 -> vec_holds m1 y1 g1 ->
  vwritable z1 -> allocated m1 (vcells z1) -> disjoint_or_aligned_v x1 z1 -> disjoint_or_aligned_v y1 z1 ->
  vext x2 = vext z2 -> vext y2 = vext z2 -> vec_holds m2 x2 f2 -> vec_holds m2 y2 g2 ->
  vwritable z2 -> allocated m2 (vcells z2) -> disjoint_or_aligned_v x2 z2 -> disjoint_or_aligned_v y2 z2 ->
  same_length x1 x2 -> same_length y1 y2 -> same_length z1 z2 ->
  vec_le le x1 f1 f2 -> vec_le le y1 g1 g2 ->
  succeeds (add_1 x1 y1 z1) m1 (fun _ m1' =>
  succeeds (add_1 x2 y2 z2) m2 (fun _ m2' =>
    exists r1 r2, vec_holds m1' z1 r1 /\ vec_holds m2' z2 r2 /\ vec_le le z1 r1 r2)).
Proof. exact (@add_le). Qed.
Print Assumptions C102_add.
Example C102_add_case :
  succeeds (add_1 (vec_at 8 2) (vec_at 12 2) (vec_at 10 2)) data_mem (fun _ m1' =>
  succeeds (add_1 (vec_at 8 2) (vec_at 12 2) (vec_at 10 2)) bound_mem (fun _ m2' => exists r1 r2, vec_holds m1' (vec_at 10 2) r1 /\ vec_holds m2' (vec_at 10 2) r2 /\ dominated (r1 1 : F64) (r2 1 : F64))).
Proof.
  eapply wp_conseq; [apply (C102_add F64 _ (C102_dominated _ _ _ _) data_mem bound_mem (vec_at 8 2) (vec_at 8 2) (vec_at 12 2) (vec_at 12 2) (vec_at 10 2) (vec_at 10 2) (fv [fl (-1) 0; fl (3) 0]) (fv [fl (1) 0; fl (3) 0]) (fv [fl (2) 0; fl (-6) 0]) (fv [fl (2) 0; fl (6) 0])); conc|].
  intros u m1' K. eapply wp_conseq; [exact K|]. intros u2 m2' (r1 & r2 & K1 & K2 & K3). exists r1, r2. split; [exact K1|split; [exact K2|]].
  apply K3; simpl; lia.
Qed.

(** the same for matrices *)
Theorem C102_add_2 : forall (O : ops) (le : O -> O -> Prop), monotone O le -> forall (m1 m2 : mem O) x1 x2 y1 y2 z1 z2 f1 f2 g1 g2,
  ext0 x1 = ext0 z1 -> ext1 x1 = ext1 z1 -> ext0 y1 = ext0 z1 -> ext1 y1 = ext1 z1 ->
  mat_holds m1 x1 f1 -> mat_holds m1 y1 g1 ->
  mwritable z1 -> allocated m1 (mcells z1) -> disjoint_or_aligned_m x1 z1 -> disjoint_or_aligned_m y1 z1 ->
  ext0 x2 = ext0 z2 -> ext1 x2 = ext1 z2 -> ext0 y2 = ext0 z2 -> ext1 y2 = ext1 z2 ->
  mat_holds m2 x2 f2 -> mat_holds m2 y2 g2 ->
  mwritable z2 -> allocated m2 (mcells z2) -> disjoint_or_aligned_m x2 z2 -> disjoint_or_aligned_m y2 z2 ->
  same_shape x1 x2 -> same_shape y1 y2 -> same_shape z1 z2 ->
  mat_le le x1 all2 f1 f2 -> mat_le le y1 all2 g1 g2 ->
  succeeds (add_2 x1 y1 z1) m1 (fun _ m1' =>
  succeeds (add_2 x2 y2 z2) m2 (fun _ m2' =>
    exists r1 r2, mat_holds m1' z1 r1 /\ mat_holds m2' z2 r2 /\ mat_le le z1 all2 r1 r2)).
Proof. exact (@add_2_le). Qed.
Print Assumptions C102_add_2.
Example C102_add_2_case :
  succeeds (add_2 (row_major 0 2 2) (row_major 4 2 2) (row_major 14 2 2)) data_mem (fun _ m1' =>
  succeeds (add_2 (row_major 0 2 2) (row_major 4 2 2) (row_major 14 2 2)) bound_mem (fun _ m2' => exists r1 r2, mat_holds m1' (row_major 14 2 2) r1 /\ mat_holds m2' (row_major 14 2 2) r2 /\ dominated (r1 1 0 : F64) (r2 1 0 : F64))).
Proof.
  eapply wp_conseq; [apply (C102_add_2 F64 _ (C102_dominated _ _ _ _) data_mem bound_mem (row_major 0 2 2) (row_major 0 2 2) (row_major 4 2 2) (row_major 4 2 2) (row_major 14 2 2) (row_major 14 2 2) (fm [[fl (2) 0; fl (-7) 0]; [fl (-5) 0; fl (3) 0]]) (fm [[fl (2) 0; fl (8) 0]; [fl (5) 0; fl (3) 0]]) (fm [[fl (0) 0; fl (-1) 0]; [fl (1) 0; fl (4) 0]]) (fm [[fl (1) 0; fl (1) 0]; [fl (1) 0; fl (4) 0]])); conc|].
  intros u m1' K. eapply wp_conseq; [exact K|]. intros u2 m2' (r1 & r2 & K1 & K2 & K3). exists r1, r2. split; [exact K1|split; [exact K2|]].
  apply K3; [simpl; lia|simpl; lia|first [exact I | simpl; lia]].
Qed.

(** init + sum x_i y_i *)
Theorem C102_dot : forall (O : ops) (le : O -> O -> Prop), monotone O le -> forall (m1 m2 : mem O) x1 x2 y1 y2 f1 f2 g1 g2 (init1 init2 : O),
  vext x1 = vext y1 -> vec_holds m1 x1 f1 -> vec_holds m1 y1 g1 ->
  vext x2 = vext y2 -> vec_holds m2 x2 f2 -> vec_holds m2 y2 g2 ->
  same_length x1 x2 -> same_length y1 y2 ->
  vec_le le x1 f1 f2 -> vec_le le y1 g1 g2 -> le init1 init2 ->
  succeeds (dot x1 y1 init1) m1 (fun r1 _ => succeeds (dot x2 y2 init2) m2 (fun r2 _ => le r1 r2)).
Proof. exact (@dot_le). Qed.
Print Assumptions C102_dot.
Example C102_dot_case :
  succeeds (dot (vec_at 8 2) (vec_at 12 2) (fl (-1) 0)) data_mem (fun r1 _ => succeeds (dot (vec_at 8 2) (vec_at 12 2) (fl 2 0)) bound_mem (fun r2 _ => dominated (r1 : F64) (r2 : F64))).
Proof.
  eapply wp_conseq; [apply (C102_dot F64 _ (C102_dominated _ _ _ _) data_mem bound_mem (vec_at 8 2) (vec_at 8 2) (vec_at 12 2) (vec_at 12 2) (fv [fl (-1) 0; fl (3) 0]) (fv [fl (1) 0; fl (3) 0]) (fv [fl (2) 0; fl (-6) 0]) (fv [fl (2) 0; fl (6) 0]) (fl (-1) 0) (fl 2 0)); conc|].
  intros r1 m1' K. exact K.
Qed.

(** init + sum conj(x_i) y_i *)
Theorem C102_dotc : forall (O : ops) (le : O -> O -> Prop), monotone O le -> forall (m1 m2 : mem O) fix_nc nc x1 x2 y1 y2 f1 f2 g1 g2 (init1 init2 : O),
  (forall v : O, conj (conj v) = v) -> (nc = true -> forall v : O, conj v = v) ->
  vext x1 = vext y1 -> vec_holds m1 x1 f1 -> vec_holds m1 y1 g1 ->
  vext x2 = vext y2 -> vec_holds m2 x2 f2 -> vec_holds m2 y2 g2 ->
  same_length x1 x2 -> same_length y1 y2 ->
  vec_le le x1 f1 f2 -> vec_le le y1 g1 g2 -> le init1 init2 ->
  succeeds (dotc fix_nc nc x1 y1 init1) m1 (fun r1 _ => succeeds (dotc fix_nc nc x2 y2 init2) m2 (fun r2 _ => le r1 r2)).
Proof. exact (@dotc_le). Qed.
Print Assumptions C102_dotc.
Example C102_dotc_case :
  succeeds (dotc true true (vec_at 8 2) (vec_at 12 2) (fl (-1) 0)) data_mem (fun r1 _ => succeeds (dotc true true (vec_at 8 2) (vec_at 12 2) (fl 2 0)) bound_mem (fun r2 _ => dominated (r1 : F64) (r2 : F64))).
Proof.
  eapply wp_conseq; [apply (C102_dotc F64 _ (C102_dominated _ _ _ _) data_mem bound_mem true true (vec_at 8 2) (vec_at 8 2) (vec_at 12 2) (vec_at 12 2) (fv [fl (-1) 0; fl (3) 0]) (fv [fl (1) 0; fl (3) 0]) (fv [fl (2) 0; fl (-6) 0]) (fv [fl (2) 0; fl (6) 0]) (fl (-1) 0) (fl 2 0)); conc|].
  intros r1 m1' K. exact K.
Qed.

(** y = A x *)
Theorem C102_gemv : forall (O : ops) (le : O -> O -> Prop), monotone O le -> forall (m1 m2 : mem O) A1 A2 x1 x2 y1 y2 a1 a2 f1 f2,
  vext x1 = ext1 A1 -> vext y1 = ext0 A1 ->
  mat_holds m1 A1 a1 -> vec_holds m1 x1 f1 -> vwritable y1 -> allocated m1 (vcells y1) ->
  disjoint (mcells A1) (vcells y1) -> disjoint (vcells x1) (vcells y1) ->
  vext x2 = ext1 A2 -> vext y2 = ext0 A2 ->
  mat_holds m2 A2 a2 -> vec_holds m2 x2 f2 -> vwritable y2 -> allocated m2 (vcells y2) ->
  disjoint (mcells A2) (vcells y2) -> disjoint (vcells x2) (vcells y2) ->
  same_length x1 x2 -> same_shape A1 A2 -> same_length y1 y2 ->
  vec_le le x1 f1 f2 -> mat_le le A1 all2 a1 a2 ->
  succeeds (matrix_vector_product A1 x1 y1) m1 (fun _ m1' =>
  succeeds (matrix_vector_product A2 x2 y2) m2 (fun _ m2' =>
    exists r1 r2, vec_holds m1' y1 r1 /\ vec_holds m2' y2 r2 /\ vec_le le y1 r1 r2)).
Proof. exact (@gemv_le). Qed.
Print Assumptions C102_gemv.
Example C102_gemv_case :
  succeeds (matrix_vector_product (row_major 0 2 2) (vec_at 8 2) (vec_at 10 2)) data_mem (fun _ m1' =>
  succeeds (matrix_vector_product (row_major 0 2 2) (vec_at 8 2) (vec_at 10 2)) bound_mem (fun _ m2' => exists r1 r2, vec_holds m1' (vec_at 10 2) r1 /\ vec_holds m2' (vec_at 10 2) r2 /\ dominated (r1 1 : F64) (r2 1 : F64))).
Proof.
  eapply wp_conseq; [apply (C102_gemv F64 _ (C102_dominated _ _ _ _) data_mem bound_mem (row_major 0 2 2) (row_major 0 2 2) (vec_at 8 2) (vec_at 8 2) (vec_at 10 2) (vec_at 10 2) (fm [[fl (2) 0; fl (-7) 0]; [fl (-5) 0; fl (3) 0]]) (fm [[fl (2) 0; fl (8) 0]; [fl (5) 0; fl (3) 0]]) (fv [fl (-1) 0; fl (3) 0]) (fv [fl (1) 0; fl (3) 0])); conc|].
  intros u m1' K. eapply wp_conseq; [exact K|]. intros u2 m2' (r1 & r2 & K1 & K2 & K3). exists r1, r2. split; [exact K1|split; [exact K2|]].
  apply K3; simpl; lia.
Qed.

(** z = y + A x *)
Theorem C102_gemv_upd : forall (O : ops) (le : O -> O -> Prop), monotone O le -> forall (m1 m2 : mem O) A1 A2 x1 x2 y1 y2 z1 z2 a1 a2 f1 f2 g1 g2,
  vext x1 = ext1 A1 -> vext y1 = ext0 A1 -> vext z1 = ext0 A1 ->
  mat_holds m1 A1 a1 -> vec_holds m1 x1 f1 -> vec_holds m1 y1 g1 -> vwritable z1 -> allocated m1 (vcells z1) ->
  disjoint (mcells A1) (vcells z1) -> disjoint (vcells x1) (vcells z1) -> disjoint_or_aligned_v y1 z1 ->
  vext x2 = ext1 A2 -> vext y2 = ext0 A2 -> vext z2 = ext0 A2 ->
  mat_holds m2 A2 a2 -> vec_holds m2 x2 f2 -> vec_holds m2 y2 g2 -> vwritable z2 -> allocated m2 (vcells z2) ->
  disjoint (mcells A2) (vcells z2) -> disjoint (vcells x2) (vcells z2) -> disjoint_or_aligned_v y2 z2 ->
  same_length x1 x2 -> same_length y1 y2 -> same_shape A1 A2 -> same_length z1 z2 ->
  vec_le le x1 f1 f2 -> vec_le le y1 g1 g2 -> mat_le le A1 all2 a1 a2 ->
  succeeds (matrix_vector_product_upd A1 x1 y1 z1) m1 (fun _ m1' =>
  succeeds (matrix_vector_product_upd A2 x2 y2 z2) m2 (fun _ m2' =>
    exists r1 r2, vec_holds m1' z1 r1 /\ vec_holds m2' z2 r2 /\ vec_le le z1 r1 r2)).
Proof. exact (@gemv_upd_le). Qed.
Print Assumptions C102_gemv_upd.
Example C102_gemv_upd_case :
  succeeds (matrix_vector_product_upd (row_major 0 2 2) (vec_at 8 2) (vec_at 10 2) (vec_at 12 2)) data_mem (fun _ m1' =>
  succeeds (matrix_vector_product_upd (row_major 0 2 2) (vec_at 8 2) (vec_at 10 2) (vec_at 12 2)) bound_mem (fun _ m2' => exists r1 r2, vec_holds m1' (vec_at 12 2) r1 /\ vec_holds m2' (vec_at 12 2) r2 /\ dominated (r1 1 : F64) (r2 1 : F64))).
Proof.
  eapply wp_conseq; [apply (C102_gemv_upd F64 _ (C102_dominated _ _ _ _) data_mem bound_mem (row_major 0 2 2) (row_major 0 2 2) (vec_at 8 2) (vec_at 8 2) (vec_at 10 2) (vec_at 10 2) (vec_at 12 2) (vec_at 12 2) (fm [[fl (2) 0; fl (-7) 0]; [fl (-5) 0; fl (3) 0]]) (fm [[fl (2) 0; fl (8) 0]; [fl (5) 0; fl (3) 0]]) (fv [fl (-1) 0; fl (3) 0]) (fv [fl (1) 0; fl (3) 0]) (fv [fl (4) 0; fl (-5) 0]) (fv [fl (4) 0; fl (6) 0])); conc|].
  intros u m1' K. eapply wp_conseq; [exact K|]. intros u2 m2' (r1 & r2 & K1 & K2 & K3). exists r1, r2. split; [exact K1|split; [exact K2|]].
  apply K3; simpl; lia.
Qed.

(** y = A x, A symmetric *)
Theorem C102_symv : forall (O : ops) (le : O -> O -> Prop), monotone O le -> forall (m1 m2 : mem O) A1 A2 t x1 x2 y1 y2 a1 a2 f1 f2,
  ext0 A1 = ext1 A1 -> vext x1 = ext1 A1 -> vext y1 = ext0 A1 ->
  mat_holds_on m1 A1 (in_tri t) a1 -> vec_holds m1 x1 f1 -> vwritable y1 -> allocated m1 (vcells y1) ->
  disjoint (mcells_on A1 (in_tri t)) (vcells y1) -> disjoint (vcells x1) (vcells y1) ->
  ext0 A2 = ext1 A2 -> vext x2 = ext1 A2 -> vext y2 = ext0 A2 ->
  mat_holds_on m2 A2 (in_tri t) a2 -> vec_holds m2 x2 f2 -> vwritable y2 -> allocated m2 (vcells y2) ->
  disjoint (mcells_on A2 (in_tri t)) (vcells y2) -> disjoint (vcells x2) (vcells y2) ->
  same_length x1 x2 -> same_shape A1 A2 -> same_length y1 y2 ->
  vec_le le x1 f1 f2 -> mat_le le A1 (in_tri t) a1 a2 ->
  succeeds (symmetric_matrix_vector_product A1 t x1 y1) m1 (fun _ m1' =>
  succeeds (symmetric_matrix_vector_product A2 t x2 y2) m2 (fun _ m2' =>
    exists r1 r2, vec_holds m1' y1 r1 /\ vec_holds m2' y2 r2 /\ vec_le le y1 r1 r2)).
Proof. exact (@symv_le). Qed.
Print Assumptions C102_symv.
Example C102_symv_case :
  succeeds (symmetric_matrix_vector_product (row_major 0 2 2) Lower (vec_at 8 2) (vec_at 10 2)) data_mem (fun _ m1' =>
  succeeds (symmetric_matrix_vector_product (row_major 0 2 2) Lower (vec_at 8 2) (vec_at 10 2)) bound_mem (fun _ m2' => exists r1 r2, vec_holds m1' (vec_at 10 2) r1 /\ vec_holds m2' (vec_at 10 2) r2 /\ dominated (r1 1 : F64) (r2 1 : F64))).
Proof.
  eapply wp_conseq; [apply (C102_symv F64 _ (C102_dominated _ _ _ _) data_mem bound_mem (row_major 0 2 2) (row_major 0 2 2) Lower (vec_at 8 2) (vec_at 8 2) (vec_at 10 2) (vec_at 10 2) (fm [[fl (2) 0; fl (-7) 0]; [fl (-5) 0; fl (3) 0]]) (fm [[fl (2) 0; fl (8) 0]; [fl (5) 0; fl (3) 0]]) (fv [fl (-1) 0; fl (3) 0]) (fv [fl (1) 0; fl (3) 0])); conc|].
  intros u m1' K. eapply wp_conseq; [exact K|]. intros u2 m2' (r1 & r2 & K1 & K2 & K3). exists r1, r2. split; [exact K1|split; [exact K2|]].
  apply K3; simpl; lia.
Qed.

(** z = y + A x, A symmetric *)
Theorem C102_symv_upd : forall (O : ops) (le : O -> O -> Prop), monotone O le -> forall (m1 m2 : mem O) A1 A2 t x1 x2 y1 y2 z1 z2 a1 a2 f1 f2 g1 g2,
  ext0 A1 = ext1 A1 -> vext x1 = ext1 A1 -> vext y1 = ext0 A1 -> vext z1 = ext0 A1 ->
  mat_holds_on m1 A1 (in_tri t) a1 -> vec_holds m1 x1 f1 -> vec_holds m1 y1 g1 -> vwritable z1 -> allocated m1 (vcells z1) ->
  disjoint (mcells_on A1 (in_tri t)) (vcells z1) -> disjoint (vcells x1) (vcells z1) -> disjoint_or_aligned_v y1 z1 ->
  ext0 A2 = ext1 A2 -> vext x2 = ext1 A2 -> vext y2 = ext0 A2 -> vext z2 = ext0 A2 ->
  mat_holds_on m2 A2 (in_tri t) a2 -> vec_holds m2 x2 f2 -> vec_holds m2 y2 g2 -> vwritable z2 -> allocated m2 (vcells z2) ->
  disjoint (mcells_on A2 (in_tri t)) (vcells z2) -> disjoint (vcells x2) (vcells z2) -> disjoint_or_aligned_v y2 z2 ->
  same_length x1 x2 -> same_length y1 y2 -> same_shape A1 A2 -> same_length z1 z2 ->
  vec_le le x1 f1 f2 -> vec_le le y1 g1 g2 -> mat_le le A1 (in_tri t) a1 a2 ->
  succeeds (symmetric_matrix_vector_product_upd A1 t x1 y1 z1) m1 (fun _ m1' =>
  succeeds (symmetric_matrix_vector_product_upd A2 t x2 y2 z2) m2 (fun _ m2' =>
    exists r1 r2, vec_holds m1' z1 r1 /\ vec_holds m2' z2 r2 /\ vec_le le z1 r1 r2)).
Proof. exact (@symv_upd_le). Qed.
Print Assumptions C102_symv_upd.
Example C102_symv_upd_case :
  succeeds (symmetric_matrix_vector_product_upd (row_major 0 2 2) Lower (vec_at 8 2) (vec_at 10 2) (vec_at 12 2)) data_mem (fun _ m1' =>
  succeeds (symmetric_matrix_vector_product_upd (row_major 0 2 2) Lower (vec_at 8 2) (vec_at 10 2) (vec_at 12 2)) bound_mem (fun _ m2' => exists r1 r2, vec_holds m1' (vec_at 12 2) r1 /\ vec_holds m2' (vec_at 12 2) r2 /\ dominated (r1 1 : F64) (r2 1 : F64))).
Proof.
  eapply wp_conseq; [apply (C102_symv_upd F64 _ (C102_dominated _ _ _ _) data_mem bound_mem (row_major 0 2 2) (row_major 0 2 2) Lower (vec_at 8 2) (vec_at 8 2) (vec_at 10 2) (vec_at 10 2) (vec_at 12 2) (vec_at 12 2) (fm [[fl (2) 0; fl (-7) 0]; [fl (-5) 0; fl (3) 0]]) (fm [[fl (2) 0; fl (8) 0]; [fl (5) 0; fl (3) 0]]) (fv [fl (-1) 0; fl (3) 0]) (fv [fl (1) 0; fl (3) 0]) (fv [fl (4) 0; fl (-5) 0]) (fv [fl (4) 0; fl (6) 0])); conc|].
  intros u m1' K. eapply wp_conseq; [exact K|]. intros u2 m2' (r1 & r2 & K1 & K2 & K3). exists r1, r2. split; [exact K1|split; [exact K2|]].
  apply K3; simpl; lia.
Qed.

(** y = A x, A Hermitian *)
Theorem C102_hemv : forall (O : ops) (le : O -> O -> Prop), monotone O le -> forall (m1 m2 : mem O) A1 A2 t x1 x2 y1 y2 a1 a2 f1 f2,
  ext0 A1 = ext1 A1 -> vext x1 = ext1 A1 -> vext y1 = ext0 A1 ->
  mat_holds_on m1 A1 (in_tri t) a1 -> vec_holds m1 x1 f1 -> vwritable y1 -> allocated m1 (vcells y1) ->
  disjoint (mcells_on A1 (in_tri t)) (vcells y1) -> disjoint (vcells x1) (vcells y1) ->
  ext0 A2 = ext1 A2 -> vext x2 = ext1 A2 -> vext y2 = ext0 A2 ->
  mat_holds_on m2 A2 (in_tri t) a2 -> vec_holds m2 x2 f2 -> vwritable y2 -> allocated m2 (vcells y2) ->
  disjoint (mcells_on A2 (in_tri t)) (vcells y2) -> disjoint (vcells x2) (vcells y2) ->
  same_length x1 x2 -> same_shape A1 A2 -> same_length y1 y2 ->
  vec_le le x1 f1 f2 -> mat_le le A1 (in_tri t) a1 a2 ->
  succeeds (hermitian_matrix_vector_product A1 t x1 y1) m1 (fun _ m1' =>
  succeeds (hermitian_matrix_vector_product A2 t x2 y2) m2 (fun _ m2' =>
    exists r1 r2, vec_holds m1' y1 r1 /\ vec_holds m2' y2 r2 /\ vec_le le y1 r1 r2)).
Proof. exact (@hemv_le). Qed.
Print Assumptions C102_hemv.
Example C102_hemv_case :
  succeeds (hermitian_matrix_vector_product (row_major 0 2 2) Lower (vec_at 8 2) (vec_at 10 2)) data_mem (fun _ m1' =>
  succeeds (hermitian_matrix_vector_product (row_major 0 2 2) Lower (vec_at 8 2) (vec_at 10 2)) bound_mem (fun _ m2' => exists r1 r2, vec_holds m1' (vec_at 10 2) r1 /\ vec_holds m2' (vec_at 10 2) r2 /\ dominated (r1 1 : F64) (r2 1 : F64))).
Proof.
  eapply wp_conseq; [apply (C102_hemv F64 _ (C102_dominated _ _ _ _) data_mem bound_mem (row_major 0 2 2) (row_major 0 2 2) Lower (vec_at 8 2) (vec_at 8 2) (vec_at 10 2) (vec_at 10 2) (fm [[fl (2) 0; fl (-7) 0]; [fl (-5) 0; fl (3) 0]]) (fm [[fl (2) 0; fl (8) 0]; [fl (5) 0; fl (3) 0]]) (fv [fl (-1) 0; fl (3) 0]) (fv [fl (1) 0; fl (3) 0])); conc|].
  intros u m1' K. eapply wp_conseq; [exact K|]. intros u2 m2' (r1 & r2 & K1 & K2 & K3). exists r1, r2. split; [exact K1|split; [exact K2|]].
  apply K3; simpl; lia.
Qed.

(** z = y + A x, A Hermitian *)
Theorem C102_hemv_upd : forall (O : ops) (le : O -> O -> Prop), monotone O le -> forall (m1 m2 : mem O) A1 A2 t x1 x2 y1 y2 z1 z2 a1 a2 f1 f2 g1 g2,
  ext0 A1 = ext1 A1 -> vext x1 = ext1 A1 -> vext y1 = ext0 A1 -> vext z1 = ext0 A1 ->
  mat_holds_on m1 A1 (in_tri t) a1 -> vec_holds m1 x1 f1 -> vec_holds m1 y1 g1 -> vwritable z1 -> allocated m1 (vcells z1) ->
  disjoint (mcells_on A1 (in_tri t)) (vcells z1) -> disjoint (vcells x1) (vcells z1) -> disjoint_or_aligned_v y1 z1 ->
  ext0 A2 = ext1 A2 -> vext x2 = ext1 A2 -> vext y2 = ext0 A2 -> vext z2 = ext0 A2 ->
  mat_holds_on m2 A2 (in_tri t) a2 -> vec_holds m2 x2 f2 -> vec_holds m2 y2 g2 -> vwritable z2 -> allocated m2 (vcells z2) ->
  disjoint (mcells_on A2 (in_tri t)) (vcells z2) -> disjoint (vcells x2) (vcells z2) -> disjoint_or_aligned_v y2 z2 ->
  same_length x1 x2 -> same_length y1 y2 -> same_shape A1 A2 -> same_length z1 z2 ->
  vec_le le x1 f1 f2 -> vec_le le y1 g1 g2 -> mat_le le A1 (in_tri t) a1 a2 ->
  succeeds (hermitian_matrix_vector_product_upd A1 t x1 y1 z1) m1 (fun _ m1' =>
  succeeds (hermitian_matrix_vector_product_upd A2 t x2 y2 z2) m2 (fun _ m2' =>
    exists r1 r2, vec_holds m1' z1 r1 /\ vec_holds m2' z2 r2 /\ vec_le le z1 r1 r2)).
Proof. exact (@hemv_upd_le). Qed.
Print Assumptions C102_hemv_upd.
Example C102_hemv_upd_case :
  succeeds (hermitian_matrix_vector_product_upd (row_major 0 2 2) Lower (vec_at 8 2) (vec_at 10 2) (vec_at 12 2)) data_mem (fun _ m1' =>
  succeeds (hermitian_matrix_vector_product_upd (row_major 0 2 2) Lower (vec_at 8 2) (vec_at 10 2) (vec_at 12 2)) bound_mem (fun _ m2' => exists r1 r2, vec_holds m1' (vec_at 12 2) r1 /\ vec_holds m2' (vec_at 12 2) r2 /\ dominated (r1 1 : F64) (r2 1 : F64))).
Proof.
  eapply wp_conseq; [apply (C102_hemv_upd F64 _ (C102_dominated _ _ _ _) data_mem bound_mem (row_major 0 2 2) (row_major 0 2 2) Lower (vec_at 8 2) (vec_at 8 2) (vec_at 10 2) (vec_at 10 2) (vec_at 12 2) (vec_at 12 2) (fm [[fl (2) 0; fl (-7) 0]; [fl (-5) 0; fl (3) 0]]) (fm [[fl (2) 0; fl (8) 0]; [fl (5) 0; fl (3) 0]]) (fv [fl (-1) 0; fl (3) 0]) (fv [fl (1) 0; fl (3) 0]) (fv [fl (4) 0; fl (-5) 0]) (fv [fl (4) 0; fl (6) 0])); conc|].
  intros u m1' K. eapply wp_conseq; [exact K|]. intros u2 m2' (r1 & r2 & K1 & K2 & K3). exists r1, r2. split; [exact K1|split; [exact K2|]].
  apply K3; simpl; lia.
Qed.

(** y = A x, A triangular *)
Theorem C102_trmv : forall (O : ops) (le : O -> O -> Prop), monotone O le -> forall (m1 m2 : mem O) A1 A2 t d x1 x2 y1 y2 a1 a2 f1 f2,
  ext0 A1 = ext1 A1 -> vext x1 = ext1 A1 -> vext y1 = ext0 A1 ->
  mat_holds_on m1 A1 (stored t d) a1 -> vec_holds m1 x1 f1 -> vwritable y1 -> allocated m1 (vcells y1) ->
  disjoint (mcells_on A1 (stored t d)) (vcells y1) -> disjoint (vcells x1) (vcells y1) ->
  ext0 A2 = ext1 A2 -> vext x2 = ext1 A2 -> vext y2 = ext0 A2 ->
  mat_holds_on m2 A2 (stored t d) a2 -> vec_holds m2 x2 f2 -> vwritable y2 -> allocated m2 (vcells y2) ->
  disjoint (mcells_on A2 (stored t d)) (vcells y2) -> disjoint (vcells x2) (vcells y2) ->
  same_length x1 x2 -> same_shape A1 A2 -> same_length y1 y2 ->
  vec_le le x1 f1 f2 -> mat_le le A1 (stored t d) a1 a2 ->
  succeeds (triangular_matrix_vector_product A1 t d x1 y1) m1 (fun _ m1' =>
  succeeds (triangular_matrix_vector_product A2 t d x2 y2) m2 (fun _ m2' =>
    exists r1 r2, vec_holds m1' y1 r1 /\ vec_holds m2' y2 r2 /\ vec_le le y1 r1 r2)).
Proof. exact (@trmv_le). Qed.
Print Assumptions C102_trmv.
Example C102_trmv_case :
  succeeds (triangular_matrix_vector_product (row_major 0 2 2) Lower Explicit (vec_at 8 2) (vec_at 10 2)) data_mem (fun _ m1' =>
  succeeds (triangular_matrix_vector_product (row_major 0 2 2) Lower Explicit (vec_at 8 2) (vec_at 10 2)) bound_mem (fun _ m2' => exists r1 r2, vec_holds m1' (vec_at 10 2) r1 /\ vec_holds m2' (vec_at 10 2) r2 /\ dominated (r1 1 : F64) (r2 1 : F64))).
Proof.
  eapply wp_conseq; [apply (C102_trmv F64 _ (C102_dominated _ _ _ _) data_mem bound_mem (row_major 0 2 2) (row_major 0 2 2) Lower Explicit (vec_at 8 2) (vec_at 8 2) (vec_at 10 2) (vec_at 10 2) (fm [[fl (2) 0; fl (-7) 0]; [fl (-5) 0; fl (3) 0]]) (fm [[fl (2) 0; fl (8) 0]; [fl (5) 0; fl (3) 0]]) (fv [fl (-1) 0; fl (3) 0]) (fv [fl (1) 0; fl (3) 0])); conc|].
  intros u m1' K. eapply wp_conseq; [exact K|]. intros u2 m2' (r1 & r2 & K1 & K2 & K3). exists r1, r2. split; [exact K1|split; [exact K2|]].
  apply K3; simpl; lia.
Qed.

(** z = y + A x, A triangular *)
Theorem C102_trmv_upd : forall (O : ops) (le : O -> O -> Prop), monotone O le -> forall (m1 m2 : mem O) A1 A2 t d x1 x2 y1 y2 z1 z2 a1 a2 f1 f2 g1 g2,
  ext0 A1 = ext1 A1 -> vext x1 = ext1 A1 -> vext y1 = ext0 A1 -> vext z1 = ext0 A1 ->
  mat_holds_on m1 A1 (stored t d) a1 -> vec_holds m1 x1 f1 -> vec_holds m1 y1 g1 -> vwritable z1 -> allocated m1 (vcells z1) ->
  disjoint (mcells_on A1 (stored t d)) (vcells z1) -> disjoint (vcells x1) (vcells z1) -> disjoint_or_aligned_v y1 z1 ->
  ext0 A2 = ext1 A2 -> vext x2 = ext1 A2 -> vext y2 = ext0 A2 -> vext z2 = ext0 A2 ->
  mat_holds_on m2 A2 (stored t d) a2 -> vec_holds m2 x2 f2 -> vec_holds m2 y2 g2 -> vwritable z2 -> allocated m2 (vcells z2) ->
  disjoint (mcells_on A2 (stored t d)) (vcells z2) -> disjoint (vcells x2) (vcells z2) -> disjoint_or_aligned_v y2 z2 ->
  same_length x1 x2 -> same_length y1 y2 -> same_shape A1 A2 -> same_length z1 z2 ->
  vec_le le x1 f1 f2 -> vec_le le y1 g1 g2 -> mat_le le A1 (stored t d) a1 a2 ->
  succeeds (triangular_matrix_vector_product_upd A1 t d x1 y1 z1) m1 (fun _ m1' =>
  succeeds (triangular_matrix_vector_product_upd A2 t d x2 y2 z2) m2 (fun _ m2' =>
    exists r1 r2, vec_holds m1' z1 r1 /\ vec_holds m2' z2 r2 /\ vec_le le z1 r1 r2)).
Proof. exact (@trmv_upd_le). Qed.
Print Assumptions C102_trmv_upd.
Example C102_trmv_upd_case :
  succeeds (triangular_matrix_vector_product_upd (row_major 0 2 2) Lower Explicit (vec_at 8 2) (vec_at 10 2) (vec_at 12 2)) data_mem (fun _ m1' =>
  succeeds (triangular_matrix_vector_product_upd (row_major 0 2 2) Lower Explicit (vec_at 8 2) (vec_at 10 2) (vec_at 12 2)) bound_mem (fun _ m2' => exists r1 r2, vec_holds m1' (vec_at 12 2) r1 /\ vec_holds m2' (vec_at 12 2) r2 /\ dominated (r1 1 : F64) (r2 1 : F64))).
Proof.
  eapply wp_conseq; [apply (C102_trmv_upd F64 _ (C102_dominated _ _ _ _) data_mem bound_mem (row_major 0 2 2) (row_major 0 2 2) Lower Explicit (vec_at 8 2) (vec_at 8 2) (vec_at 10 2) (vec_at 10 2) (vec_at 12 2) (vec_at 12 2) (fm [[fl (2) 0; fl (-7) 0]; [fl (-5) 0; fl (3) 0]]) (fm [[fl (2) 0; fl (8) 0]; [fl (5) 0; fl (3) 0]]) (fv [fl (-1) 0; fl (3) 0]) (fv [fl (1) 0; fl (3) 0]) (fv [fl (4) 0; fl (-5) 0]) (fv [fl (4) 0; fl (6) 0])); conc|].
  intros u m1' K. eapply wp_conseq; [exact K|]. intros u2 m2' (r1 & r2 & K1 & K2 & K3). exists r1, r2. split; [exact K1|split; [exact K2|]].
  apply K3; simpl; lia.
Qed.

(** y = A y, A triangular *)
Theorem C102_trmv_inplace : forall (O : ops) (le : O -> O -> Prop), monotone O le -> forall (m1 m2 : mem O) A1 A2 t d y1 y2 a1 a2 f1 f2,
  ext0 A1 = ext1 A1 -> vext y1 = ext0 A1 ->
  mat_holds_on m1 A1 (stored t d) a1 -> vec_holds m1 y1 f1 -> vwritable y1 ->
  disjoint (mcells_on A1 (stored t d)) (vcells y1) ->
  ext0 A2 = ext1 A2 -> vext y2 = ext0 A2 ->
  mat_holds_on m2 A2 (stored t d) a2 -> vec_holds m2 y2 f2 -> vwritable y2 ->
  disjoint (mcells_on A2 (stored t d)) (vcells y2) ->
  same_length y1 y2 -> same_shape A1 A2 ->
  vec_le le y1 f1 f2 -> mat_le le A1 (stored t d) a1 a2 ->
  succeeds (triangular_matrix_vector_product_inplace A1 t d y1) m1 (fun _ m1' =>
  succeeds (triangular_matrix_vector_product_inplace A2 t d y2) m2 (fun _ m2' =>
    exists r1 r2, vec_holds m1' y1 r1 /\ vec_holds m2' y2 r2 /\ vec_le le y1 r1 r2)).
Proof. exact (@trmv_inplace_le). Qed.
Print Assumptions C102_trmv_inplace.
Example C102_trmv_inplace_case :
  succeeds (triangular_matrix_vector_product_inplace (row_major 0 2 2) Lower Explicit (vec_at 8 2)) data_mem (fun _ m1' =>
  succeeds (triangular_matrix_vector_product_inplace (row_major 0 2 2) Lower Explicit (vec_at 8 2)) bound_mem (fun _ m2' => exists r1 r2, vec_holds m1' (vec_at 8 2) r1 /\ vec_holds m2' (vec_at 8 2) r2 /\ dominated (r1 1 : F64) (r2 1 : F64))).
Proof.
  eapply wp_conseq; [apply (C102_trmv_inplace F64 _ (C102_dominated _ _ _ _) data_mem bound_mem (row_major 0 2 2) (row_major 0 2 2) Lower Explicit (vec_at 8 2) (vec_at 8 2) (fm [[fl (2) 0; fl (-7) 0]; [fl (-5) 0; fl (3) 0]]) (fm [[fl (2) 0; fl (8) 0]; [fl (5) 0; fl (3) 0]]) (fv [fl (-1) 0; fl (3) 0]) (fv [fl (1) 0; fl (3) 0])); conc|].
  intros u m1' K. eapply wp_conseq; [exact K|]. intros u2 m2' (r1 & r2 & K1 & K2 & K3). exists r1, r2. split; [exact K1|split; [exact K2|]].
  apply K3; simpl; lia.
Qed.

(** A += x y^T *)
Theorem C102_ger : forall (O : ops) (le : O -> O -> Prop), monotone O le -> forall (m1 m2 : mem O) x1 x2 y1 y2 A1 A2 a1 a2 f1 f2 g1 g2,
  vext x1 = ext0 A1 -> vext y1 = ext1 A1 ->
  mat_holds m1 A1 a1 -> vec_holds m1 x1 f1 -> vec_holds m1 y1 g1 -> mwritable A1 ->
  disjoint (vcells x1) (mcells A1) -> disjoint (vcells y1) (mcells A1) ->
  vext x2 = ext0 A2 -> vext y2 = ext1 A2 ->
  mat_holds m2 A2 a2 -> vec_holds m2 x2 f2 -> vec_holds m2 y2 g2 -> mwritable A2 ->
  disjoint (vcells x2) (mcells A2) -> disjoint (vcells y2) (mcells A2) ->
  same_length x1 x2 -> same_length y1 y2 -> same_shape A1 A2 ->
  vec_le le x1 f1 f2 -> vec_le le y1 g1 g2 -> mat_le le A1 all2 a1 a2 ->
  succeeds (matrix_rank_1_update x1 y1 A1) m1 (fun _ m1' =>
  succeeds (matrix_rank_1_update x2 y2 A2) m2 (fun _ m2' =>
    exists r1 r2, mat_holds m1' A1 r1 /\ mat_holds m2' A2 r2 /\ mat_le le A1 all2 r1 r2)).
Proof. exact (@ger_le). Qed.
Print Assumptions C102_ger.
Example C102_ger_case :
  succeeds (matrix_rank_1_update (vec_at 8 2) (vec_at 12 2) (row_major 14 2 2)) data_mem (fun _ m1' =>
  succeeds (matrix_rank_1_update (vec_at 8 2) (vec_at 12 2) (row_major 14 2 2)) bound_mem (fun _ m2' => exists r1 r2, mat_holds m1' (row_major 14 2 2) r1 /\ mat_holds m2' (row_major 14 2 2) r2 /\ dominated (r1 1 0 : F64) (r2 1 0 : F64))).
Proof.
  eapply wp_conseq; [apply (C102_ger F64 _ (C102_dominated _ _ _ _) data_mem bound_mem (vec_at 8 2) (vec_at 8 2) (vec_at 12 2) (vec_at 12 2) (row_major 14 2 2) (row_major 14 2 2) (fm [[fl (1) 0; fl (-2) 0]; [fl (3) 0; fl (-4) 0]]) (fm [[fl (1) 0; fl (2) 0]; [fl (3) 0; fl (5) 0]]) (fv [fl (-1) 0; fl (3) 0]) (fv [fl (1) 0; fl (3) 0]) (fv [fl (2) 0; fl (-6) 0]) (fv [fl (2) 0; fl (6) 0])); conc|].
  intros u m1' K. eapply wp_conseq; [exact K|]. intros u2 m2' (r1 & r2 & K1 & K2 & K3). exists r1, r2. split; [exact K1|split; [exact K2|]].
  apply K3; [simpl; lia|simpl; lia|first [exact I | simpl; lia]].
Qed.

(** A += x y^H *)
Theorem C102_gerc : forall (O : ops) (le : O -> O -> Prop), monotone O le -> forall (m1 m2 : mem O) fix_nc nc x1 x2 y1 y2 A1 A2 a1 a2 f1 f2 g1 g2,
  (forall v : O, conj (conj v) = v) -> (nc = true -> forall v : O, conj v = v) ->
  vext x1 = ext0 A1 -> vext y1 = ext1 A1 ->
  mat_holds m1 A1 a1 -> vec_holds m1 x1 f1 -> vec_holds m1 y1 g1 -> mwritable A1 ->
  disjoint (vcells x1) (mcells A1) -> disjoint (vcells y1) (mcells A1) ->
  vext x2 = ext0 A2 -> vext y2 = ext1 A2 ->
  mat_holds m2 A2 a2 -> vec_holds m2 x2 f2 -> vec_holds m2 y2 g2 -> mwritable A2 ->
  disjoint (vcells x2) (mcells A2) -> disjoint (vcells y2) (mcells A2) ->
  same_length x1 x2 -> same_length y1 y2 -> same_shape A1 A2 ->
  vec_le le x1 f1 f2 -> vec_le le y1 g1 g2 -> mat_le le A1 all2 a1 a2 ->
  succeeds (matrix_rank_1_update_c fix_nc nc x1 y1 A1) m1 (fun _ m1' =>
  succeeds (matrix_rank_1_update_c fix_nc nc x2 y2 A2) m2 (fun _ m2' =>
    exists r1 r2, mat_holds m1' A1 r1 /\ mat_holds m2' A2 r2 /\ mat_le le A1 all2 r1 r2)).
Proof. exact (@gerc_le). Qed.
Print Assumptions C102_gerc.
Example C102_gerc_case :
  succeeds (matrix_rank_1_update_c true true (vec_at 8 2) (vec_at 12 2) (row_major 14 2 2)) data_mem (fun _ m1' =>
  succeeds (matrix_rank_1_update_c true true (vec_at 8 2) (vec_at 12 2) (row_major 14 2 2)) bound_mem (fun _ m2' => exists r1 r2, mat_holds m1' (row_major 14 2 2) r1 /\ mat_holds m2' (row_major 14 2 2) r2 /\ dominated (r1 1 0 : F64) (r2 1 0 : F64))).
Proof.
  eapply wp_conseq; [apply (C102_gerc F64 _ (C102_dominated _ _ _ _) data_mem bound_mem true true (vec_at 8 2) (vec_at 8 2) (vec_at 12 2) (vec_at 12 2) (row_major 14 2 2) (row_major 14 2 2) (fm [[fl (1) 0; fl (-2) 0]; [fl (3) 0; fl (-4) 0]]) (fm [[fl (1) 0; fl (2) 0]; [fl (3) 0; fl (5) 0]]) (fv [fl (-1) 0; fl (3) 0]) (fv [fl (1) 0; fl (3) 0]) (fv [fl (2) 0; fl (-6) 0]) (fv [fl (2) 0; fl (6) 0])); conc|].
  intros u m1' K. eapply wp_conseq; [exact K|]. intros u2 m2' (r1 & r2 & K1 & K2 & K3). exists r1, r2. split; [exact K1|split; [exact K2|]].
  apply K3; [simpl; lia|simpl; lia|first [exact I | simpl; lia]].
Qed.

(** A += x x^T on one triangle *)
Theorem C102_syr : forall (O : ops) (le : O -> O -> Prop), monotone O le -> forall (m1 m2 : mem O) x1 x2 A1 A2 t a1 a2 f1 f2,
  ext0 A1 = ext1 A1 -> vext x1 = ext0 A1 ->
  mat_holds_on m1 A1 (in_tri t) a1 -> vec_holds m1 x1 f1 -> mwritable_on A1 (in_tri t) ->
  disjoint (vcells x1) (mcells_on A1 (in_tri t)) ->
  ext0 A2 = ext1 A2 -> vext x2 = ext0 A2 ->
  mat_holds_on m2 A2 (in_tri t) a2 -> vec_holds m2 x2 f2 -> mwritable_on A2 (in_tri t) ->
  disjoint (vcells x2) (mcells_on A2 (in_tri t)) ->
  same_length x1 x2 -> same_shape A1 A2 ->
  vec_le le x1 f1 f2 -> mat_le le A1 (in_tri t) a1 a2 ->
  succeeds (symmetric_matrix_rank_1_update x1 A1 t) m1 (fun _ m1' =>
  succeeds (symmetric_matrix_rank_1_update x2 A2 t) m2 (fun _ m2' =>
    exists r1 r2, mat_holds_on m1' A1 (in_tri t) r1 /\ mat_holds_on m2' A2 (in_tri t) r2 /\ mat_le le A1 (in_tri t) r1 r2)).
Proof. exact (@syr_le). Qed.
Print Assumptions C102_syr.
Example C102_syr_case :
  succeeds (symmetric_matrix_rank_1_update (vec_at 12 2) (row_major 14 2 2) Lower) data_mem (fun _ m1' =>
  succeeds (symmetric_matrix_rank_1_update (vec_at 12 2) (row_major 14 2 2) Lower) bound_mem (fun _ m2' => exists r1 r2, mat_holds_on m1' (row_major 14 2 2) (in_tri Lower) r1 /\ mat_holds_on m2' (row_major 14 2 2) (in_tri Lower) r2 /\ dominated (r1 1 0 : F64) (r2 1 0 : F64))).
Proof.
  eapply wp_conseq; [apply (C102_syr F64 _ (C102_dominated _ _ _ _) data_mem bound_mem (vec_at 12 2) (vec_at 12 2) (row_major 14 2 2) (row_major 14 2 2) Lower (fm [[fl (1) 0; fl (-2) 0]; [fl (3) 0; fl (-4) 0]]) (fm [[fl (1) 0; fl (2) 0]; [fl (3) 0; fl (5) 0]]) (fv [fl (2) 0; fl (-6) 0]) (fv [fl (2) 0; fl (6) 0])); conc|].
  intros u m1' K. eapply wp_conseq; [exact K|]. intros u2 m2' (r1 & r2 & K1 & K2 & K3). exists r1, r2. split; [exact K1|split; [exact K2|]].
  apply K3; [simpl; lia|simpl; lia|first [exact I | simpl; lia]].
Qed.

(** A += alpha x x^T on one triangle *)
Theorem C102_syr_alpha : forall (O : ops) (le : O -> O -> Prop), monotone O le -> forall (m1 m2 : mem O) (alpha1 alpha2 : O) x1 x2 A1 A2 t a1 a2 f1 f2,
  ext0 A1 = ext1 A1 -> vext x1 = ext0 A1 ->
  mat_holds_on m1 A1 (in_tri t) a1 -> vec_holds m1 x1 f1 -> mwritable_on A1 (in_tri t) ->
  disjoint (vcells x1) (mcells_on A1 (in_tri t)) ->
  ext0 A2 = ext1 A2 -> vext x2 = ext0 A2 ->
  mat_holds_on m2 A2 (in_tri t) a2 -> vec_holds m2 x2 f2 -> mwritable_on A2 (in_tri t) ->
  disjoint (vcells x2) (mcells_on A2 (in_tri t)) ->
  same_length x1 x2 -> same_shape A1 A2 ->
  vec_le le x1 f1 f2 -> mat_le le A1 (in_tri t) a1 a2 -> le alpha1 alpha2 ->
  succeeds (symmetric_matrix_rank_1_update_alpha alpha1 x1 A1 t) m1 (fun _ m1' =>
  succeeds (symmetric_matrix_rank_1_update_alpha alpha2 x2 A2 t) m2 (fun _ m2' =>
    exists r1 r2, mat_holds_on m1' A1 (in_tri t) r1 /\ mat_holds_on m2' A2 (in_tri t) r2 /\ mat_le le A1 (in_tri t) r1 r2)).
Proof. exact (@syr_alpha_le). Qed.
Print Assumptions C102_syr_alpha.
Example C102_syr_alpha_case :
  succeeds (symmetric_matrix_rank_1_update_alpha (fl (-3) 0) (vec_at 12 2) (row_major 14 2 2) Lower) data_mem (fun _ m1' =>
  succeeds (symmetric_matrix_rank_1_update_alpha (fl 3 0) (vec_at 12 2) (row_major 14 2 2) Lower) bound_mem (fun _ m2' => exists r1 r2, mat_holds_on m1' (row_major 14 2 2) (in_tri Lower) r1 /\ mat_holds_on m2' (row_major 14 2 2) (in_tri Lower) r2 /\ dominated (r1 1 0 : F64) (r2 1 0 : F64))).
Proof.
  eapply wp_conseq; [apply (C102_syr_alpha F64 _ (C102_dominated _ _ _ _) data_mem bound_mem (fl (-3) 0) (fl 3 0) (vec_at 12 2) (vec_at 12 2) (row_major 14 2 2) (row_major 14 2 2) Lower (fm [[fl (1) 0; fl (-2) 0]; [fl (3) 0; fl (-4) 0]]) (fm [[fl (1) 0; fl (2) 0]; [fl (3) 0; fl (5) 0]]) (fv [fl (2) 0; fl (-6) 0]) (fv [fl (2) 0; fl (6) 0])); conc|].
  intros u m1' K. eapply wp_conseq; [exact K|]. intros u2 m2' (r1 & r2 & K1 & K2 & K3). exists r1, r2. split; [exact K1|split; [exact K2|]].
  apply K3; [simpl; lia|simpl; lia|first [exact I | simpl; lia]].
Qed.

(** A += x y^T + y x^T on one triangle *)
Theorem C102_syr2 : forall (O : ops) (le : O -> O -> Prop), monotone O le -> forall (m1 m2 : mem O) x1 x2 y1 y2 A1 A2 t a1 a2 f1 f2 g1 g2,
  ext0 A1 = ext1 A1 -> vext x1 = ext0 A1 -> vext y1 = ext0 A1 ->
  mat_holds_on m1 A1 (in_tri t) a1 -> vec_holds m1 x1 f1 -> vec_holds m1 y1 g1 -> mwritable_on A1 (in_tri t) ->
  disjoint (vcells x1) (mcells_on A1 (in_tri t)) -> disjoint (vcells y1) (mcells_on A1 (in_tri t)) ->
  ext0 A2 = ext1 A2 -> vext x2 = ext0 A2 -> vext y2 = ext0 A2 ->
  mat_holds_on m2 A2 (in_tri t) a2 -> vec_holds m2 x2 f2 -> vec_holds m2 y2 g2 -> mwritable_on A2 (in_tri t) ->
  disjoint (vcells x2) (mcells_on A2 (in_tri t)) -> disjoint (vcells y2) (mcells_on A2 (in_tri t)) ->
  same_length x1 x2 -> same_length y1 y2 -> same_shape A1 A2 ->
  vec_le le x1 f1 f2 -> vec_le le y1 g1 g2 -> mat_le le A1 (in_tri t) a1 a2 ->
  succeeds (symmetric_matrix_rank_2_update x1 y1 A1 t) m1 (fun _ m1' =>
  succeeds (symmetric_matrix_rank_2_update x2 y2 A2 t) m2 (fun _ m2' =>
    exists r1 r2, mat_holds_on m1' A1 (in_tri t) r1 /\ mat_holds_on m2' A2 (in_tri t) r2 /\ mat_le le A1 (in_tri t) r1 r2)).
Proof. exact (@syr2_le). Qed.
Print Assumptions C102_syr2.
Example C102_syr2_case :
  succeeds (symmetric_matrix_rank_2_update (vec_at 8 2) (vec_at 12 2) (row_major 14 2 2) Lower) data_mem (fun _ m1' =>
  succeeds (symmetric_matrix_rank_2_update (vec_at 8 2) (vec_at 12 2) (row_major 14 2 2) Lower) bound_mem (fun _ m2' => exists r1 r2, mat_holds_on m1' (row_major 14 2 2) (in_tri Lower) r1 /\ mat_holds_on m2' (row_major 14 2 2) (in_tri Lower) r2 /\ dominated (r1 1 0 : F64) (r2 1 0 : F64))).
Proof.
  eapply wp_conseq; [apply (C102_syr2 F64 _ (C102_dominated _ _ _ _) data_mem bound_mem (vec_at 8 2) (vec_at 8 2) (vec_at 12 2) (vec_at 12 2) (row_major 14 2 2) (row_major 14 2 2) Lower (fm [[fl (1) 0; fl (-2) 0]; [fl (3) 0; fl (-4) 0]]) (fm [[fl (1) 0; fl (2) 0]; [fl (3) 0; fl (5) 0]]) (fv [fl (-1) 0; fl (3) 0]) (fv [fl (1) 0; fl (3) 0]) (fv [fl (2) 0; fl (-6) 0]) (fv [fl (2) 0; fl (6) 0])); conc|].
  intros u m1' K. eapply wp_conseq; [exact K|]. intros u2 m2' (r1 & r2 & K1 & K2 & K3). exists r1, r2. split; [exact K1|split; [exact K2|]].
  apply K3; [simpl; lia|simpl; lia|first [exact I | simpl; lia]].
Qed.

(** A += x x^H on one triangle *)
Theorem C102_her : forall (O : ops) (le : O -> O -> Prop), monotone O le -> forall (m1 m2 : mem O) x1 x2 A1 A2 t a1 a2 f1 f2,
  ext0 A1 = ext1 A1 -> vext x1 = ext0 A1 ->
  mat_holds_on m1 A1 (in_tri t) a1 -> vec_holds m1 x1 f1 -> mwritable_on A1 (in_tri t) ->
  disjoint (vcells x1) (mcells_on A1 (in_tri t)) ->
  ext0 A2 = ext1 A2 -> vext x2 = ext0 A2 ->
  mat_holds_on m2 A2 (in_tri t) a2 -> vec_holds m2 x2 f2 -> mwritable_on A2 (in_tri t) ->
  disjoint (vcells x2) (mcells_on A2 (in_tri t)) ->
  same_length x1 x2 -> same_shape A1 A2 ->
  vec_le le x1 f1 f2 -> mat_le le A1 (in_tri t) a1 a2 ->
  succeeds (hermitian_matrix_rank_1_update x1 A1 t) m1 (fun _ m1' =>
  succeeds (hermitian_matrix_rank_1_update x2 A2 t) m2 (fun _ m2' =>
    exists r1 r2, mat_holds_on m1' A1 (in_tri t) r1 /\ mat_holds_on m2' A2 (in_tri t) r2 /\ mat_le le A1 (in_tri t) r1 r2)).
Proof. exact (@her_le). Qed.
Print Assumptions C102_her.
Example C102_her_case :
  succeeds (hermitian_matrix_rank_1_update (vec_at 12 2) (row_major 14 2 2) Lower) data_mem (fun _ m1' =>
  succeeds (hermitian_matrix_rank_1_update (vec_at 12 2) (row_major 14 2 2) Lower) bound_mem (fun _ m2' => exists r1 r2, mat_holds_on m1' (row_major 14 2 2) (in_tri Lower) r1 /\ mat_holds_on m2' (row_major 14 2 2) (in_tri Lower) r2 /\ dominated (r1 1 0 : F64) (r2 1 0 : F64))).
Proof.
  eapply wp_conseq; [apply (C102_her F64 _ (C102_dominated _ _ _ _) data_mem bound_mem (vec_at 12 2) (vec_at 12 2) (row_major 14 2 2) (row_major 14 2 2) Lower (fm [[fl (1) 0; fl (-2) 0]; [fl (3) 0; fl (-4) 0]]) (fm [[fl (1) 0; fl (2) 0]; [fl (3) 0; fl (5) 0]]) (fv [fl (2) 0; fl (-6) 0]) (fv [fl (2) 0; fl (6) 0])); conc|].
  intros u m1' K. eapply wp_conseq; [exact K|]. intros u2 m2' (r1 & r2 & K1 & K2 & K3). exists r1, r2. split; [exact K1|split; [exact K2|]].
  apply K3; [simpl; lia|simpl; lia|first [exact I | simpl; lia]].
Qed.

(** A += alpha x x^H on one triangle *)
Theorem C102_her_alpha : forall (O : ops) (le : O -> O -> Prop), monotone O le -> forall (m1 m2 : mem O) (alpha1 alpha2 : O) x1 x2 A1 A2 t a1 a2 f1 f2,
  ext0 A1 = ext1 A1 -> vext x1 = ext0 A1 ->
  mat_holds_on m1 A1 (in_tri t) a1 -> vec_holds m1 x1 f1 -> mwritable_on A1 (in_tri t) ->
  disjoint (vcells x1) (mcells_on A1 (in_tri t)) ->
  ext0 A2 = ext1 A2 -> vext x2 = ext0 A2 ->
  mat_holds_on m2 A2 (in_tri t) a2 -> vec_holds m2 x2 f2 -> mwritable_on A2 (in_tri t) ->
  disjoint (vcells x2) (mcells_on A2 (in_tri t)) ->
  same_length x1 x2 -> same_shape A1 A2 ->
  vec_le le x1 f1 f2 -> mat_le le A1 (in_tri t) a1 a2 -> le alpha1 alpha2 ->
  succeeds (hermitian_matrix_rank_1_update_alpha alpha1 x1 A1 t) m1 (fun _ m1' =>
  succeeds (hermitian_matrix_rank_1_update_alpha alpha2 x2 A2 t) m2 (fun _ m2' =>
    exists r1 r2, mat_holds_on m1' A1 (in_tri t) r1 /\ mat_holds_on m2' A2 (in_tri t) r2 /\ mat_le le A1 (in_tri t) r1 r2)).
Proof. exact (@her_alpha_le). Qed.
Print Assumptions C102_her_alpha.
Example C102_her_alpha_case :
  succeeds (hermitian_matrix_rank_1_update_alpha (fl (-3) 0) (vec_at 12 2) (row_major 14 2 2) Lower) data_mem (fun _ m1' =>
  succeeds (hermitian_matrix_rank_1_update_alpha (fl 3 0) (vec_at 12 2) (row_major 14 2 2) Lower) bound_mem (fun _ m2' => exists r1 r2, mat_holds_on m1' (row_major 14 2 2) (in_tri Lower) r1 /\ mat_holds_on m2' (row_major 14 2 2) (in_tri Lower) r2 /\ dominated (r1 1 0 : F64) (r2 1 0 : F64))).
Proof.
  eapply wp_conseq; [apply (C102_her_alpha F64 _ (C102_dominated _ _ _ _) data_mem bound_mem (fl (-3) 0) (fl 3 0) (vec_at 12 2) (vec_at 12 2) (row_major 14 2 2) (row_major 14 2 2) Lower (fm [[fl (1) 0; fl (-2) 0]; [fl (3) 0; fl (-4) 0]]) (fm [[fl (1) 0; fl (2) 0]; [fl (3) 0; fl (5) 0]]) (fv [fl (2) 0; fl (-6) 0]) (fv [fl (2) 0; fl (6) 0])); conc|].
  intros u m1' K. eapply wp_conseq; [exact K|]. intros u2 m2' (r1 & r2 & K1 & K2 & K3). exists r1, r2. split; [exact K1|split; [exact K2|]].
  apply K3; [simpl; lia|simpl; lia|first [exact I | simpl; lia]].
Qed.

(** A += x y^H + y x^H on one triangle *)
Theorem C102_her2 : forall (O : ops) (le : O -> O -> Prop), monotone O le -> forall (m1 m2 : mem O) x1 x2 y1 y2 A1 A2 t a1 a2 f1 f2 g1 g2,
  ext0 A1 = ext1 A1 -> vext x1 = ext0 A1 -> vext y1 = ext0 A1 ->
  mat_holds_on m1 A1 (in_tri t) a1 -> vec_holds m1 x1 f1 -> vec_holds m1 y1 g1 -> mwritable_on A1 (in_tri t) ->
  disjoint (vcells x1) (mcells_on A1 (in_tri t)) -> disjoint (vcells y1) (mcells_on A1 (in_tri t)) ->
  ext0 A2 = ext1 A2 -> vext x2 = ext0 A2 -> vext y2 = ext0 A2 ->
  mat_holds_on m2 A2 (in_tri t) a2 -> vec_holds m2 x2 f2 -> vec_holds m2 y2 g2 -> mwritable_on A2 (in_tri t) ->
  disjoint (vcells x2) (mcells_on A2 (in_tri t)) -> disjoint (vcells y2) (mcells_on A2 (in_tri t)) ->
  same_length x1 x2 -> same_length y1 y2 -> same_shape A1 A2 ->
  vec_le le x1 f1 f2 -> vec_le le y1 g1 g2 -> mat_le le A1 (in_tri t) a1 a2 ->
  succeeds (hermitian_matrix_rank_2_update x1 y1 A1 t) m1 (fun _ m1' =>
  succeeds (hermitian_matrix_rank_2_update x2 y2 A2 t) m2 (fun _ m2' =>
    exists r1 r2, mat_holds_on m1' A1 (in_tri t) r1 /\ mat_holds_on m2' A2 (in_tri t) r2 /\ mat_le le A1 (in_tri t) r1 r2)).
Proof. exact (@her2_le). Qed.
Print Assumptions C102_her2.
Example C102_her2_case :
  succeeds (hermitian_matrix_rank_2_update (vec_at 8 2) (vec_at 12 2) (row_major 14 2 2) Lower) data_mem (fun _ m1' =>
  succeeds (hermitian_matrix_rank_2_update (vec_at 8 2) (vec_at 12 2) (row_major 14 2 2) Lower) bound_mem (fun _ m2' => exists r1 r2, mat_holds_on m1' (row_major 14 2 2) (in_tri Lower) r1 /\ mat_holds_on m2' (row_major 14 2 2) (in_tri Lower) r2 /\ dominated (r1 1 0 : F64) (r2 1 0 : F64))).
Proof.
  eapply wp_conseq; [apply (C102_her2 F64 _ (C102_dominated _ _ _ _) data_mem bound_mem (vec_at 8 2) (vec_at 8 2) (vec_at 12 2) (vec_at 12 2) (row_major 14 2 2) (row_major 14 2 2) Lower (fm [[fl (1) 0; fl (-2) 0]; [fl (3) 0; fl (-4) 0]]) (fm [[fl (1) 0; fl (2) 0]; [fl (3) 0; fl (5) 0]]) (fv [fl (-1) 0; fl (3) 0]) (fv [fl (1) 0; fl (3) 0]) (fv [fl (2) 0; fl (-6) 0]) (fv [fl (2) 0; fl (6) 0])); conc|].
  intros u m1' K. eapply wp_conseq; [exact K|]. intros u2 m2' (r1 & r2 & K1 & K2 & K3). exists r1, r2. split; [exact K1|split; [exact K2|]].
  apply K3; [simpl; lia|simpl; lia|first [exact I | simpl; lia]].
Qed.

(** C = A B *)
Theorem C102_gemm : forall (O : ops) (le : O -> O -> Prop), monotone O le -> forall (m1 m2 : mem O) A1 A2 B1 B2 C1 C2 a1 a2 b1 b2,
  ext0 C1 = ext0 A1 -> ext1 A1 = ext0 B1 -> ext1 C1 = ext1 B1 ->
  mat_holds m1 A1 a1 -> mat_holds m1 B1 b1 -> mwritable C1 -> allocated m1 (mcells C1) ->
  disjoint (mcells A1) (mcells C1) -> disjoint (mcells B1) (mcells C1) ->
  ext0 C2 = ext0 A2 -> ext1 A2 = ext0 B2 -> ext1 C2 = ext1 B2 ->
  mat_holds m2 A2 a2 -> mat_holds m2 B2 b2 -> mwritable C2 -> allocated m2 (mcells C2) ->
  disjoint (mcells A2) (mcells C2) -> disjoint (mcells B2) (mcells C2) ->
  same_shape A1 A2 -> same_shape B1 B2 -> same_shape C1 C2 ->
  mat_le le A1 all2 a1 a2 -> mat_le le B1 all2 b1 b2 ->
  succeeds (matrix_product A1 B1 C1) m1 (fun _ m1' =>
  succeeds (matrix_product A2 B2 C2) m2 (fun _ m2' =>
    exists r1 r2, mat_holds m1' C1 r1 /\ mat_holds m2' C2 r2 /\ mat_le le C1 all2 r1 r2)).
Proof. exact (@gemm_le). Qed.
Print Assumptions C102_gemm.
Example C102_gemm_case :
  succeeds (matrix_product (row_major 0 2 2) (row_major 4 2 2) (row_major 14 2 2)) data_mem (fun _ m1' =>
  succeeds (matrix_product (row_major 0 2 2) (row_major 4 2 2) (row_major 14 2 2)) bound_mem (fun _ m2' => exists r1 r2, mat_holds m1' (row_major 14 2 2) r1 /\ mat_holds m2' (row_major 14 2 2) r2 /\ dominated (r1 1 0 : F64) (r2 1 0 : F64))).
Proof.
  eapply wp_conseq; [apply (C102_gemm F64 _ (C102_dominated _ _ _ _) data_mem bound_mem (row_major 0 2 2) (row_major 0 2 2) (row_major 4 2 2) (row_major 4 2 2) (row_major 14 2 2) (row_major 14 2 2) (fm [[fl (2) 0; fl (-7) 0]; [fl (-5) 0; fl (3) 0]]) (fm [[fl (2) 0; fl (8) 0]; [fl (5) 0; fl (3) 0]]) (fm [[fl (0) 0; fl (-1) 0]; [fl (1) 0; fl (4) 0]]) (fm [[fl (1) 0; fl (1) 0]; [fl (1) 0; fl (4) 0]])); conc|].
  intros u m1' K. eapply wp_conseq; [exact K|]. intros u2 m2' (r1 & r2 & K1 & K2 & K3). exists r1, r2. split; [exact K1|split; [exact K2|]].
  apply K3; [simpl; lia|simpl; lia|first [exact I | simpl; lia]].
Qed.

(** C = E + A B *)
Theorem C102_gemm_upd : forall (O : ops) (le : O -> O -> Prop), monotone O le -> forall (m1 m2 : mem O) A1 A2 B1 B2 E1 E2 C1 C2 a1 a2 b1 b2 e1 e2,
  ext0 C1 = ext0 A1 -> ext1 A1 = ext0 B1 -> ext1 C1 = ext1 B1 -> ext0 E1 = ext0 C1 -> ext1 E1 = ext1 C1 ->
  mat_holds m1 A1 a1 -> mat_holds m1 B1 b1 -> mat_holds m1 E1 e1 -> mwritable C1 -> allocated m1 (mcells C1) ->
  disjoint (mcells A1) (mcells C1) -> disjoint (mcells B1) (mcells C1) -> disjoint_or_aligned_m E1 C1 ->
  ext0 C2 = ext0 A2 -> ext1 A2 = ext0 B2 -> ext1 C2 = ext1 B2 -> ext0 E2 = ext0 C2 -> ext1 E2 = ext1 C2 ->
  mat_holds m2 A2 a2 -> mat_holds m2 B2 b2 -> mat_holds m2 E2 e2 -> mwritable C2 -> allocated m2 (mcells C2) ->
  disjoint (mcells A2) (mcells C2) -> disjoint (mcells B2) (mcells C2) -> disjoint_or_aligned_m E2 C2 ->
  same_shape A1 A2 -> same_shape B1 B2 -> same_shape E1 E2 -> same_shape C1 C2 ->
  mat_le le A1 all2 a1 a2 -> mat_le le B1 all2 b1 b2 -> mat_le le E1 all2 e1 e2 ->
  succeeds (matrix_product_upd A1 B1 E1 C1) m1 (fun _ m1' =>
  succeeds (matrix_product_upd A2 B2 E2 C2) m2 (fun _ m2' =>
    exists r1 r2, mat_holds m1' C1 r1 /\ mat_holds m2' C2 r2 /\ mat_le le C1 all2 r1 r2)).
Proof. exact (@gemm_upd_le). Qed.
Print Assumptions C102_gemm_upd.
Example C102_gemm_upd_case :
  succeeds (matrix_product_upd (row_major 0 2 2) (row_major 4 2 2) (row_major 14 2 2) (row_major 18 2 2)) data_mem (fun _ m1' =>
  succeeds (matrix_product_upd (row_major 0 2 2) (row_major 4 2 2) (row_major 14 2 2) (row_major 18 2 2)) bound_mem (fun _ m2' => exists r1 r2, mat_holds m1' (row_major 18 2 2) r1 /\ mat_holds m2' (row_major 18 2 2) r2 /\ dominated (r1 1 0 : F64) (r2 1 0 : F64))).
Proof.
  eapply wp_conseq; [apply (C102_gemm_upd F64 _ (C102_dominated _ _ _ _) data_mem bound_mem (row_major 0 2 2) (row_major 0 2 2) (row_major 4 2 2) (row_major 4 2 2) (row_major 14 2 2) (row_major 14 2 2) (row_major 18 2 2) (row_major 18 2 2) (fm [[fl (2) 0; fl (-7) 0]; [fl (-5) 0; fl (3) 0]]) (fm [[fl (2) 0; fl (8) 0]; [fl (5) 0; fl (3) 0]]) (fm [[fl (0) 0; fl (-1) 0]; [fl (1) 0; fl (4) 0]]) (fm [[fl (1) 0; fl (1) 0]; [fl (1) 0; fl (4) 0]]) (fm [[fl (1) 0; fl (-2) 0]; [fl (3) 0; fl (-4) 0]]) (fm [[fl (1) 0; fl (2) 0]; [fl (3) 0; fl (5) 0]])); conc|].
  intros u m1' K. eapply wp_conseq; [exact K|]. intros u2 m2' (r1 & r2 & K1 & K2 & K3). exists r1, r2. split; [exact K1|split; [exact K2|]].
  apply K3; [simpl; lia|simpl; lia|first [exact I | simpl; lia]].
Qed.

(** C = A B, A symmetric *)
Theorem C102_symm_left : forall (O : ops) (le : O -> O -> Prop), monotone O le -> forall (m1 m2 : mem O) A1 A2 t B1 B2 C1 C2 a1 a2 b1 b2,
  ext0 A1 = ext1 A1 -> ext0 C1 = ext0 A1 -> ext1 A1 = ext0 B1 -> ext1 C1 = ext1 B1 ->
  mat_holds_on m1 A1 (in_tri t) a1 -> mat_holds m1 B1 b1 -> mwritable C1 -> allocated m1 (mcells C1) ->
  disjoint (mcells_on A1 (in_tri t)) (mcells C1) -> disjoint (mcells B1) (mcells C1) ->
  ext0 A2 = ext1 A2 -> ext0 C2 = ext0 A2 -> ext1 A2 = ext0 B2 -> ext1 C2 = ext1 B2 ->
  mat_holds_on m2 A2 (in_tri t) a2 -> mat_holds m2 B2 b2 -> mwritable C2 -> allocated m2 (mcells C2) ->
  disjoint (mcells_on A2 (in_tri t)) (mcells C2) -> disjoint (mcells B2) (mcells C2) ->
  same_shape B1 B2 -> same_shape A1 A2 -> same_shape C1 C2 ->
  mat_le le B1 all2 b1 b2 -> mat_le le A1 (in_tri t) a1 a2 ->
  succeeds (symmetric_matrix_product_left A1 t B1 C1) m1 (fun _ m1' =>
  succeeds (symmetric_matrix_product_left A2 t B2 C2) m2 (fun _ m2' =>
    exists r1 r2, mat_holds m1' C1 r1 /\ mat_holds m2' C2 r2 /\ mat_le le C1 all2 r1 r2)).
Proof. exact (@symm_left_le). Qed.
Print Assumptions C102_symm_left.
Example C102_symm_left_case :
  succeeds (symmetric_matrix_product_left (row_major 0 2 2) Lower (row_major 4 2 2) (row_major 14 2 2)) data_mem (fun _ m1' =>
  succeeds (symmetric_matrix_product_left (row_major 0 2 2) Lower (row_major 4 2 2) (row_major 14 2 2)) bound_mem (fun _ m2' => exists r1 r2, mat_holds m1' (row_major 14 2 2) r1 /\ mat_holds m2' (row_major 14 2 2) r2 /\ dominated (r1 1 0 : F64) (r2 1 0 : F64))).
Proof.
  eapply wp_conseq; [apply (C102_symm_left F64 _ (C102_dominated _ _ _ _) data_mem bound_mem (row_major 0 2 2) (row_major 0 2 2) Lower (row_major 4 2 2) (row_major 4 2 2) (row_major 14 2 2) (row_major 14 2 2) (fm [[fl (2) 0; fl (-7) 0]; [fl (-5) 0; fl (3) 0]]) (fm [[fl (2) 0; fl (8) 0]; [fl (5) 0; fl (3) 0]]) (fm [[fl (0) 0; fl (-1) 0]; [fl (1) 0; fl (4) 0]]) (fm [[fl (1) 0; fl (1) 0]; [fl (1) 0; fl (4) 0]])); conc|].
  intros u m1' K. eapply wp_conseq; [exact K|]. intros u2 m2' (r1 & r2 & K1 & K2 & K3). exists r1, r2. split; [exact K1|split; [exact K2|]].
  apply K3; [simpl; lia|simpl; lia|first [exact I | simpl; lia]].
Qed.

(** C = B A, A symmetric *)
Theorem C102_symm_right : forall (O : ops) (le : O -> O -> Prop), monotone O le -> forall (m1 m2 : mem O) B1 B2 A1 A2 t C1 C2 a1 a2 b1 b2,
  ext0 A1 = ext1 A1 -> ext0 C1 = ext0 B1 -> ext1 B1 = ext0 A1 -> ext1 C1 = ext1 A1 ->
  mat_holds_on m1 A1 (in_tri t) a1 -> mat_holds m1 B1 b1 -> mwritable C1 -> allocated m1 (mcells C1) ->
  disjoint (mcells_on A1 (in_tri t)) (mcells C1) -> disjoint (mcells B1) (mcells C1) ->
  ext0 A2 = ext1 A2 -> ext0 C2 = ext0 B2 -> ext1 B2 = ext0 A2 -> ext1 C2 = ext1 A2 ->
  mat_holds_on m2 A2 (in_tri t) a2 -> mat_holds m2 B2 b2 -> mwritable C2 -> allocated m2 (mcells C2) ->
  disjoint (mcells_on A2 (in_tri t)) (mcells C2) -> disjoint (mcells B2) (mcells C2) ->
  same_shape B1 B2 -> same_shape A1 A2 -> same_shape C1 C2 ->
  mat_le le B1 all2 b1 b2 -> mat_le le A1 (in_tri t) a1 a2 ->
  succeeds (symmetric_matrix_product_right B1 A1 t C1) m1 (fun _ m1' =>
  succeeds (symmetric_matrix_product_right B2 A2 t C2) m2 (fun _ m2' =>
    exists r1 r2, mat_holds m1' C1 r1 /\ mat_holds m2' C2 r2 /\ mat_le le C1 all2 r1 r2)).
Proof. exact (@symm_right_le). Qed.
Print Assumptions C102_symm_right.
Example C102_symm_right_case :
  succeeds (symmetric_matrix_product_right (row_major 4 2 2) (row_major 0 2 2) Lower (row_major 14 2 2)) data_mem (fun _ m1' =>
  succeeds (symmetric_matrix_product_right (row_major 4 2 2) (row_major 0 2 2) Lower (row_major 14 2 2)) bound_mem (fun _ m2' => exists r1 r2, mat_holds m1' (row_major 14 2 2) r1 /\ mat_holds m2' (row_major 14 2 2) r2 /\ dominated (r1 1 0 : F64) (r2 1 0 : F64))).
Proof.
  eapply wp_conseq; [apply (C102_symm_right F64 _ (C102_dominated _ _ _ _) data_mem bound_mem (row_major 4 2 2) (row_major 4 2 2) (row_major 0 2 2) (row_major 0 2 2) Lower (row_major 14 2 2) (row_major 14 2 2) (fm [[fl (2) 0; fl (-7) 0]; [fl (-5) 0; fl (3) 0]]) (fm [[fl (2) 0; fl (8) 0]; [fl (5) 0; fl (3) 0]]) (fm [[fl (0) 0; fl (-1) 0]; [fl (1) 0; fl (4) 0]]) (fm [[fl (1) 0; fl (1) 0]; [fl (1) 0; fl (4) 0]])); conc|].
  intros u m1' K. eapply wp_conseq; [exact K|]. intros u2 m2' (r1 & r2 & K1 & K2 & K3). exists r1, r2. split; [exact K1|split; [exact K2|]].
  apply K3; [simpl; lia|simpl; lia|first [exact I | simpl; lia]].
Qed.

(** C = A B, A Hermitian *)
Theorem C102_hemm_left : forall (O : ops) (le : O -> O -> Prop), monotone O le -> forall (m1 m2 : mem O) A1 A2 t B1 B2 C1 C2 a1 a2 b1 b2,
  ext0 A1 = ext1 A1 -> ext0 C1 = ext0 A1 -> ext1 A1 = ext0 B1 -> ext1 C1 = ext1 B1 ->
  mat_holds_on m1 A1 (in_tri t) a1 -> mat_holds m1 B1 b1 -> mwritable C1 -> allocated m1 (mcells C1) ->
  disjoint (mcells_on A1 (in_tri t)) (mcells C1) -> disjoint (mcells B1) (mcells C1) ->
  ext0 A2 = ext1 A2 -> ext0 C2 = ext0 A2 -> ext1 A2 = ext0 B2 -> ext1 C2 = ext1 B2 ->
  mat_holds_on m2 A2 (in_tri t) a2 -> mat_holds m2 B2 b2 -> mwritable C2 -> allocated m2 (mcells C2) ->
  disjoint (mcells_on A2 (in_tri t)) (mcells C2) -> disjoint (mcells B2) (mcells C2) ->
  same_shape B1 B2 -> same_shape A1 A2 -> same_shape C1 C2 ->
  mat_le le B1 all2 b1 b2 -> mat_le le A1 (in_tri t) a1 a2 ->
  succeeds (hermitian_matrix_product_left A1 t B1 C1) m1 (fun _ m1' =>
  succeeds (hermitian_matrix_product_left A2 t B2 C2) m2 (fun _ m2' =>
    exists r1 r2, mat_holds m1' C1 r1 /\ mat_holds m2' C2 r2 /\ mat_le le C1 all2 r1 r2)).
Proof. exact (@hemm_left_le). Qed.
Print Assumptions C102_hemm_left.
Example C102_hemm_left_case :
  succeeds (hermitian_matrix_product_left (row_major 0 2 2) Lower (row_major 4 2 2) (row_major 14 2 2)) data_mem (fun _ m1' =>
  succeeds (hermitian_matrix_product_left (row_major 0 2 2) Lower (row_major 4 2 2) (row_major 14 2 2)) bound_mem (fun _ m2' => exists r1 r2, mat_holds m1' (row_major 14 2 2) r1 /\ mat_holds m2' (row_major 14 2 2) r2 /\ dominated (r1 1 0 : F64) (r2 1 0 : F64))).
Proof.
  eapply wp_conseq; [apply (C102_hemm_left F64 _ (C102_dominated _ _ _ _) data_mem bound_mem (row_major 0 2 2) (row_major 0 2 2) Lower (row_major 4 2 2) (row_major 4 2 2) (row_major 14 2 2) (row_major 14 2 2) (fm [[fl (2) 0; fl (-7) 0]; [fl (-5) 0; fl (3) 0]]) (fm [[fl (2) 0; fl (8) 0]; [fl (5) 0; fl (3) 0]]) (fm [[fl (0) 0; fl (-1) 0]; [fl (1) 0; fl (4) 0]]) (fm [[fl (1) 0; fl (1) 0]; [fl (1) 0; fl (4) 0]])); conc|].
  intros u m1' K. eapply wp_conseq; [exact K|]. intros u2 m2' (r1 & r2 & K1 & K2 & K3). exists r1, r2. split; [exact K1|split; [exact K2|]].
  apply K3; [simpl; lia|simpl; lia|first [exact I | simpl; lia]].
Qed.

(** C = B A, A Hermitian *)
Theorem C102_hemm_right : forall (O : ops) (le : O -> O -> Prop), monotone O le -> forall (m1 m2 : mem O) B1 B2 A1 A2 t C1 C2 a1 a2 b1 b2,
  ext0 A1 = ext1 A1 -> ext0 C1 = ext0 B1 -> ext1 B1 = ext0 A1 -> ext1 C1 = ext1 A1 ->
  mat_holds_on m1 A1 (in_tri t) a1 -> mat_holds m1 B1 b1 -> mwritable C1 -> allocated m1 (mcells C1) ->
  disjoint (mcells_on A1 (in_tri t)) (mcells C1) -> disjoint (mcells B1) (mcells C1) ->
  ext0 A2 = ext1 A2 -> ext0 C2 = ext0 B2 -> ext1 B2 = ext0 A2 -> ext1 C2 = ext1 A2 ->
  mat_holds_on m2 A2 (in_tri t) a2 -> mat_holds m2 B2 b2 -> mwritable C2 -> allocated m2 (mcells C2) ->
  disjoint (mcells_on A2 (in_tri t)) (mcells C2) -> disjoint (mcells B2) (mcells C2) ->
  same_shape B1 B2 -> same_shape A1 A2 -> same_shape C1 C2 ->
  mat_le le B1 all2 b1 b2 -> mat_le le A1 (in_tri t) a1 a2 ->
  succeeds (hermitian_matrix_product_right B1 A1 t C1) m1 (fun _ m1' =>
  succeeds (hermitian_matrix_product_right B2 A2 t C2) m2 (fun _ m2' =>
    exists r1 r2, mat_holds m1' C1 r1 /\ mat_holds m2' C2 r2 /\ mat_le le C1 all2 r1 r2)).
Proof. exact (@hemm_right_le). Qed.
Print Assumptions C102_hemm_right.
Example C102_hemm_right_case :
  succeeds (hermitian_matrix_product_right (row_major 4 2 2) (row_major 0 2 2) Lower (row_major 14 2 2)) data_mem (fun _ m1' =>
  succeeds (hermitian_matrix_product_right (row_major 4 2 2) (row_major 0 2 2) Lower (row_major 14 2 2)) bound_mem (fun _ m2' => exists r1 r2, mat_holds m1' (row_major 14 2 2) r1 /\ mat_holds m2' (row_major 14 2 2) r2 /\ dominated (r1 1 0 : F64) (r2 1 0 : F64))).
Proof.
  eapply wp_conseq; [apply (C102_hemm_right F64 _ (C102_dominated _ _ _ _) data_mem bound_mem (row_major 4 2 2) (row_major 4 2 2) (row_major 0 2 2) (row_major 0 2 2) Lower (row_major 14 2 2) (row_major 14 2 2) (fm [[fl (2) 0; fl (-7) 0]; [fl (-5) 0; fl (3) 0]]) (fm [[fl (2) 0; fl (8) 0]; [fl (5) 0; fl (3) 0]]) (fm [[fl (0) 0; fl (-1) 0]; [fl (1) 0; fl (4) 0]]) (fm [[fl (1) 0; fl (1) 0]; [fl (1) 0; fl (4) 0]])); conc|].
  intros u m1' K. eapply wp_conseq; [exact K|]. intros u2 m2' (r1 & r2 & K1 & K2 & K3). exists r1, r2. split; [exact K1|split; [exact K2|]].
  apply K3; [simpl; lia|simpl; lia|first [exact I | simpl; lia]].
Qed.

(** C = A B, A triangular *)
Theorem C102_trmm_left : forall (O : ops) (le : O -> O -> Prop), monotone O le -> forall ty (m1 m2 : mem O) A1 A2 t d B1 B2 C1 C2 a1 a2 b1 b2,
  fits ty (ext0 C1) ->
  ext0 A1 = ext1 A1 -> ext0 C1 = ext0 A1 -> ext1 A1 = ext0 B1 -> ext1 C1 = ext1 B1 ->
  mat_holds_on m1 A1 (stored t d) a1 -> mat_holds m1 B1 b1 -> mwritable C1 -> allocated m1 (mcells C1) ->
  disjoint (mcells_on A1 (stored t d)) (mcells C1) -> disjoint (mcells B1) (mcells C1) ->
  fits ty (ext0 C2) ->
  ext0 A2 = ext1 A2 -> ext0 C2 = ext0 A2 -> ext1 A2 = ext0 B2 -> ext1 C2 = ext1 B2 ->
  mat_holds_on m2 A2 (stored t d) a2 -> mat_holds m2 B2 b2 -> mwritable C2 -> allocated m2 (mcells C2) ->
  disjoint (mcells_on A2 (stored t d)) (mcells C2) -> disjoint (mcells B2) (mcells C2) ->
  same_shape B1 B2 -> same_shape A1 A2 -> same_shape C1 C2 ->
  mat_le le B1 all2 b1 b2 -> mat_le le A1 (stored t d) a1 a2 ->
  succeeds (triangular_matrix_product_left ty A1 t d B1 C1) m1 (fun _ m1' =>
  succeeds (triangular_matrix_product_left ty A2 t d B2 C2) m2 (fun _ m2' =>
    exists r1 r2, mat_holds m1' C1 r1 /\ mat_holds m2' C2 r2 /\ mat_le le C1 all2 r1 r2)).
Proof. exact (@trmm_left_le). Qed.
Print Assumptions C102_trmm_left.
Example C102_trmm_left_case :
  succeeds (triangular_matrix_product_left I32 (row_major 0 2 2) Lower Explicit (row_major 4 2 2) (row_major 14 2 2)) data_mem (fun _ m1' =>
  succeeds (triangular_matrix_product_left I32 (row_major 0 2 2) Lower Explicit (row_major 4 2 2) (row_major 14 2 2)) bound_mem (fun _ m2' => exists r1 r2, mat_holds m1' (row_major 14 2 2) r1 /\ mat_holds m2' (row_major 14 2 2) r2 /\ dominated (r1 1 0 : F64) (r2 1 0 : F64))).
Proof.
  eapply wp_conseq; [apply (C102_trmm_left F64 _ (C102_dominated _ _ _ _) I32 data_mem bound_mem (row_major 0 2 2) (row_major 0 2 2) Lower Explicit (row_major 4 2 2) (row_major 4 2 2) (row_major 14 2 2) (row_major 14 2 2) (fm [[fl (2) 0; fl (-7) 0]; [fl (-5) 0; fl (3) 0]]) (fm [[fl (2) 0; fl (8) 0]; [fl (5) 0; fl (3) 0]]) (fm [[fl (0) 0; fl (-1) 0]; [fl (1) 0; fl (4) 0]]) (fm [[fl (1) 0; fl (1) 0]; [fl (1) 0; fl (4) 0]])); conc|].
  intros u m1' K. eapply wp_conseq; [exact K|]. intros u2 m2' (r1 & r2 & K1 & K2 & K3). exists r1, r2. split; [exact K1|split; [exact K2|]].
  apply K3; [simpl; lia|simpl; lia|first [exact I | simpl; lia]].
Qed.

(** C = B A, A triangular *)
Theorem C102_trmm_right : forall (O : ops) (le : O -> O -> Prop), monotone O le -> forall ty (m1 m2 : mem O) B1 B2 A1 A2 t d C1 C2 a1 a2 b1 b2,
  fits ty (ext1 C1) ->
  ext0 A1 = ext1 A1 -> ext0 C1 = ext0 B1 -> ext1 B1 = ext0 A1 -> ext1 C1 = ext1 A1 ->
  mat_holds_on m1 A1 (stored t d) a1 -> mat_holds m1 B1 b1 -> mwritable C1 -> allocated m1 (mcells C1) ->
  disjoint (mcells_on A1 (stored t d)) (mcells C1) -> disjoint (mcells B1) (mcells C1) ->
  fits ty (ext1 C2) ->
  ext0 A2 = ext1 A2 -> ext0 C2 = ext0 B2 -> ext1 B2 = ext0 A2 -> ext1 C2 = ext1 A2 ->
  mat_holds_on m2 A2 (stored t d) a2 -> mat_holds m2 B2 b2 -> mwritable C2 -> allocated m2 (mcells C2) ->
  disjoint (mcells_on A2 (stored t d)) (mcells C2) -> disjoint (mcells B2) (mcells C2) ->
  same_shape B1 B2 -> same_shape A1 A2 -> same_shape C1 C2 ->
  mat_le le B1 all2 b1 b2 -> mat_le le A1 (stored t d) a1 a2 ->
  succeeds (triangular_matrix_product_right ty B1 A1 t d C1) m1 (fun _ m1' =>
  succeeds (triangular_matrix_product_right ty B2 A2 t d C2) m2 (fun _ m2' =>
    exists r1 r2, mat_holds m1' C1 r1 /\ mat_holds m2' C2 r2 /\ mat_le le C1 all2 r1 r2)).
Proof. exact (@trmm_right_le). Qed.
Print Assumptions C102_trmm_right.
Example C102_trmm_right_case :
  succeeds (triangular_matrix_product_right I32 (row_major 4 2 2) (row_major 0 2 2) Lower Explicit (row_major 14 2 2)) data_mem (fun _ m1' =>
  succeeds (triangular_matrix_product_right I32 (row_major 4 2 2) (row_major 0 2 2) Lower Explicit (row_major 14 2 2)) bound_mem (fun _ m2' => exists r1 r2, mat_holds m1' (row_major 14 2 2) r1 /\ mat_holds m2' (row_major 14 2 2) r2 /\ dominated (r1 1 0 : F64) (r2 1 0 : F64))).
Proof.
  eapply wp_conseq; [apply (C102_trmm_right F64 _ (C102_dominated _ _ _ _) I32 data_mem bound_mem (row_major 4 2 2) (row_major 4 2 2) (row_major 0 2 2) (row_major 0 2 2) Lower Explicit (row_major 14 2 2) (row_major 14 2 2) (fm [[fl (2) 0; fl (-7) 0]; [fl (-5) 0; fl (3) 0]]) (fm [[fl (2) 0; fl (8) 0]; [fl (5) 0; fl (3) 0]]) (fm [[fl (0) 0; fl (-1) 0]; [fl (1) 0; fl (4) 0]]) (fm [[fl (1) 0; fl (1) 0]; [fl (1) 0; fl (4) 0]])); conc|].
  intros u m1' K. eapply wp_conseq; [exact K|]. intros u2 m2' (r1 & r2 & K1 & K2 & K3). exists r1, r2. split; [exact K1|split; [exact K2|]].
  apply K3; [simpl; lia|simpl; lia|first [exact I | simpl; lia]].
Qed.

(** C = A C, A triangular *)
Theorem C102_trmm_left_inplace : forall (O : ops) (le : O -> O -> Prop), monotone O le -> forall (m1 m2 : mem O) A1 A2 t d C1 C2 a1 a2 c1 c2,
  ext0 A1 = ext1 A1 -> ext0 C1 = ext0 A1 ->
  mat_holds_on m1 A1 (stored t d) a1 -> mat_holds m1 C1 c1 -> mwritable C1 ->
  disjoint (mcells_on A1 (stored t d)) (mcells C1) ->
  ext0 A2 = ext1 A2 -> ext0 C2 = ext0 A2 ->
  mat_holds_on m2 A2 (stored t d) a2 -> mat_holds m2 C2 c2 -> mwritable C2 ->
  disjoint (mcells_on A2 (stored t d)) (mcells C2) ->
  same_shape C1 C2 -> same_shape A1 A2 ->
  mat_le le C1 all2 c1 c2 -> mat_le le A1 (stored t d) a1 a2 ->
  succeeds (triangular_matrix_left_product A1 t d C1) m1 (fun _ m1' =>
  succeeds (triangular_matrix_left_product A2 t d C2) m2 (fun _ m2' =>
    exists r1 r2, mat_holds m1' C1 r1 /\ mat_holds m2' C2 r2 /\ mat_le le C1 all2 r1 r2)).
Proof. exact (@trmm_left_inplace_le). Qed.
Print Assumptions C102_trmm_left_inplace.
Example C102_trmm_left_inplace_case :
  succeeds (triangular_matrix_left_product (row_major 0 2 2) Lower Explicit (row_major 4 2 2)) data_mem (fun _ m1' =>
  succeeds (triangular_matrix_left_product (row_major 0 2 2) Lower Explicit (row_major 4 2 2)) bound_mem (fun _ m2' => exists r1 r2, mat_holds m1' (row_major 4 2 2) r1 /\ mat_holds m2' (row_major 4 2 2) r2 /\ dominated (r1 1 0 : F64) (r2 1 0 : F64))).
Proof.
  eapply wp_conseq; [apply (C102_trmm_left_inplace F64 _ (C102_dominated _ _ _ _) data_mem bound_mem (row_major 0 2 2) (row_major 0 2 2) Lower Explicit (row_major 4 2 2) (row_major 4 2 2) (fm [[fl (2) 0; fl (-7) 0]; [fl (-5) 0; fl (3) 0]]) (fm [[fl (2) 0; fl (8) 0]; [fl (5) 0; fl (3) 0]]) (fm [[fl (0) 0; fl (-1) 0]; [fl (1) 0; fl (4) 0]]) (fm [[fl (1) 0; fl (1) 0]; [fl (1) 0; fl (4) 0]])); conc|].
  intros u m1' K. eapply wp_conseq; [exact K|]. intros u2 m2' (r1 & r2 & K1 & K2 & K3). exists r1, r2. split; [exact K1|split; [exact K2|]].
  apply K3; [simpl; lia|simpl; lia|first [exact I | simpl; lia]].
Qed.

(** C = C A, A triangular *)
Theorem C102_trmm_right_inplace : forall (O : ops) (le : O -> O -> Prop), monotone O le -> forall (m1 m2 : mem O) A1 A2 t d C1 C2 a1 a2 c1 c2,
  ext0 A1 = ext1 A1 -> ext1 C1 = ext0 A1 ->
  mat_holds_on m1 A1 (stored t d) a1 -> mat_holds m1 C1 c1 -> mwritable C1 ->
  disjoint (mcells_on A1 (stored t d)) (mcells C1) ->
  ext0 A2 = ext1 A2 -> ext1 C2 = ext0 A2 ->
  mat_holds_on m2 A2 (stored t d) a2 -> mat_holds m2 C2 c2 -> mwritable C2 ->
  disjoint (mcells_on A2 (stored t d)) (mcells C2) ->
  same_shape C1 C2 -> same_shape A1 A2 ->
  mat_le le C1 all2 c1 c2 -> mat_le le A1 (stored t d) a1 a2 ->
  succeeds (triangular_matrix_right_product A1 t d C1) m1 (fun _ m1' =>
  succeeds (triangular_matrix_right_product A2 t d C2) m2 (fun _ m2' =>
    exists r1 r2, mat_holds m1' C1 r1 /\ mat_holds m2' C2 r2 /\ mat_le le C1 all2 r1 r2)).
Proof. exact (@trmm_right_inplace_le). Qed.
Print Assumptions C102_trmm_right_inplace.
Example C102_trmm_right_inplace_case :
  succeeds (triangular_matrix_right_product (row_major 0 2 2) Lower Explicit (row_major 4 2 2)) data_mem (fun _ m1' =>
  succeeds (triangular_matrix_right_product (row_major 0 2 2) Lower Explicit (row_major 4 2 2)) bound_mem (fun _ m2' => exists r1 r2, mat_holds m1' (row_major 4 2 2) r1 /\ mat_holds m2' (row_major 4 2 2) r2 /\ dominated (r1 1 0 : F64) (r2 1 0 : F64))).
Proof.
  eapply wp_conseq; [apply (C102_trmm_right_inplace F64 _ (C102_dominated _ _ _ _) data_mem bound_mem (row_major 0 2 2) (row_major 0 2 2) Lower Explicit (row_major 4 2 2) (row_major 4 2 2) (fm [[fl (2) 0; fl (-7) 0]; [fl (-5) 0; fl (3) 0]]) (fm [[fl (2) 0; fl (8) 0]; [fl (5) 0; fl (3) 0]]) (fm [[fl (0) 0; fl (-1) 0]; [fl (1) 0; fl (4) 0]]) (fm [[fl (1) 0; fl (1) 0]; [fl (1) 0; fl (4) 0]])); conc|].
  intros u m1' K. eapply wp_conseq; [exact K|]. intros u2 m2' (r1 & r2 & K1 & K2 & K3). exists r1, r2. split; [exact K1|split; [exact K2|]].
  apply K3; [simpl; lia|simpl; lia|first [exact I | simpl; lia]].
Qed.

(** C += A A^T on one triangle *)
Theorem C102_syrk : forall (O : ops) (le : O -> O -> Prop), monotone O le -> forall (m1 m2 : mem O) A1 A2 C1 C2 t a1 a2 c1 c2,
  ext0 C1 = ext1 C1 -> ext0 A1 = ext0 C1 ->
  mat_holds m1 A1 a1 -> mat_holds_on m1 C1 (in_tri t) c1 -> mwritable_on C1 (in_tri t) ->
  disjoint (mcells A1) (mcells_on C1 (in_tri t)) ->
  ext0 C2 = ext1 C2 -> ext0 A2 = ext0 C2 ->
  mat_holds m2 A2 a2 -> mat_holds_on m2 C2 (in_tri t) c2 -> mwritable_on C2 (in_tri t) ->
  disjoint (mcells A2) (mcells_on C2 (in_tri t)) ->
  same_shape A1 A2 -> same_shape C1 C2 ->
  mat_le le A1 all2 a1 a2 -> mat_le le C1 (in_tri t) c1 c2 ->
  succeeds (symmetric_matrix_rank_k_update A1 C1 t) m1 (fun _ m1' =>
  succeeds (symmetric_matrix_rank_k_update A2 C2 t) m2 (fun _ m2' =>
    exists r1 r2, mat_holds_on m1' C1 (in_tri t) r1 /\ mat_holds_on m2' C2 (in_tri t) r2 /\ mat_le le C1 (in_tri t) r1 r2)).
Proof. exact (@syrk_le). Qed.
Print Assumptions C102_syrk.
Example C102_syrk_case :
  succeeds (symmetric_matrix_rank_k_update (row_major 0 2 2) (row_major 14 2 2) Lower) data_mem (fun _ m1' =>
  succeeds (symmetric_matrix_rank_k_update (row_major 0 2 2) (row_major 14 2 2) Lower) bound_mem (fun _ m2' => exists r1 r2, mat_holds_on m1' (row_major 14 2 2) (in_tri Lower) r1 /\ mat_holds_on m2' (row_major 14 2 2) (in_tri Lower) r2 /\ dominated (r1 1 0 : F64) (r2 1 0 : F64))).
Proof.
  eapply wp_conseq; [apply (C102_syrk F64 _ (C102_dominated _ _ _ _) data_mem bound_mem (row_major 0 2 2) (row_major 0 2 2) (row_major 14 2 2) (row_major 14 2 2) Lower (fm [[fl (2) 0; fl (-7) 0]; [fl (-5) 0; fl (3) 0]]) (fm [[fl (2) 0; fl (8) 0]; [fl (5) 0; fl (3) 0]]) (fm [[fl (1) 0; fl (-2) 0]; [fl (3) 0; fl (-4) 0]]) (fm [[fl (1) 0; fl (2) 0]; [fl (3) 0; fl (5) 0]])); conc|].
  intros u m1' K. eapply wp_conseq; [exact K|]. intros u2 m2' (r1 & r2 & K1 & K2 & K3). exists r1, r2. split; [exact K1|split; [exact K2|]].
  apply K3; [simpl; lia|simpl; lia|first [exact I | simpl; lia]].
Qed.

(** C += A A^H on one triangle *)
Theorem C102_herk : forall (O : ops) (le : O -> O -> Prop), monotone O le -> forall (m1 m2 : mem O) A1 A2 C1 C2 t a1 a2 c1 c2,
  ext0 C1 = ext1 C1 -> ext0 A1 = ext0 C1 ->
  mat_holds m1 A1 a1 -> mat_holds_on m1 C1 (in_tri t) c1 -> mwritable_on C1 (in_tri t) ->
  disjoint (mcells A1) (mcells_on C1 (in_tri t)) ->
  ext0 C2 = ext1 C2 -> ext0 A2 = ext0 C2 ->
  mat_holds m2 A2 a2 -> mat_holds_on m2 C2 (in_tri t) c2 -> mwritable_on C2 (in_tri t) ->
  disjoint (mcells A2) (mcells_on C2 (in_tri t)) ->
  same_shape A1 A2 -> same_shape C1 C2 ->
  mat_le le A1 all2 a1 a2 -> mat_le le C1 (in_tri t) c1 c2 ->
  succeeds (hermitian_matrix_rank_k_update A1 C1 t) m1 (fun _ m1' =>
  succeeds (hermitian_matrix_rank_k_update A2 C2 t) m2 (fun _ m2' =>
    exists r1 r2, mat_holds_on m1' C1 (in_tri t) r1 /\ mat_holds_on m2' C2 (in_tri t) r2 /\ mat_le le C1 (in_tri t) r1 r2)).
Proof. exact (@herk_le). Qed.
Print Assumptions C102_herk.
Example C102_herk_case :
  succeeds (hermitian_matrix_rank_k_update (row_major 0 2 2) (row_major 14 2 2) Lower) data_mem (fun _ m1' =>
  succeeds (hermitian_matrix_rank_k_update (row_major 0 2 2) (row_major 14 2 2) Lower) bound_mem (fun _ m2' => exists r1 r2, mat_holds_on m1' (row_major 14 2 2) (in_tri Lower) r1 /\ mat_holds_on m2' (row_major 14 2 2) (in_tri Lower) r2 /\ dominated (r1 1 0 : F64) (r2 1 0 : F64))).
Proof.
  eapply wp_conseq; [apply (C102_herk F64 _ (C102_dominated _ _ _ _) data_mem bound_mem (row_major 0 2 2) (row_major 0 2 2) (row_major 14 2 2) (row_major 14 2 2) Lower (fm [[fl (2) 0; fl (-7) 0]; [fl (-5) 0; fl (3) 0]]) (fm [[fl (2) 0; fl (8) 0]; [fl (5) 0; fl (3) 0]]) (fm [[fl (1) 0; fl (-2) 0]; [fl (3) 0; fl (-4) 0]]) (fm [[fl (1) 0; fl (2) 0]; [fl (3) 0; fl (5) 0]])); conc|].
  intros u m1' K. eapply wp_conseq; [exact K|]. intros u2 m2' (r1 & r2 & K1 & K2 & K3). exists r1, r2. split; [exact K1|split; [exact K2|]].
  apply K3; [simpl; lia|simpl; lia|first [exact I | simpl; lia]].
Qed.

(** C += A B^T + B A^T on one triangle *)
Theorem C102_syr2k : forall (O : ops) (le : O -> O -> Prop), monotone O le -> forall (m1 m2 : mem O) A1 A2 B1 B2 C1 C2 t a1 a2 b1 b2 c1 c2,
  ext0 C1 = ext1 C1 -> ext0 A1 = ext0 C1 -> ext0 B1 = ext0 C1 -> ext1 B1 = ext1 A1 ->
  mat_holds m1 A1 a1 -> mat_holds m1 B1 b1 -> mat_holds_on m1 C1 (in_tri t) c1 -> mwritable_on C1 (in_tri t) ->
  disjoint (mcells A1) (mcells_on C1 (in_tri t)) -> disjoint (mcells B1) (mcells_on C1 (in_tri t)) ->
  ext0 C2 = ext1 C2 -> ext0 A2 = ext0 C2 -> ext0 B2 = ext0 C2 -> ext1 B2 = ext1 A2 ->
  mat_holds m2 A2 a2 -> mat_holds m2 B2 b2 -> mat_holds_on m2 C2 (in_tri t) c2 -> mwritable_on C2 (in_tri t) ->
  disjoint (mcells A2) (mcells_on C2 (in_tri t)) -> disjoint (mcells B2) (mcells_on C2 (in_tri t)) ->
  same_shape A1 A2 -> same_shape B1 B2 -> same_shape C1 C2 ->
  mat_le le A1 all2 a1 a2 -> mat_le le B1 all2 b1 b2 -> mat_le le C1 (in_tri t) c1 c2 ->
  succeeds (symmetric_matrix_rank_2k_update A1 B1 C1 t) m1 (fun _ m1' =>
  succeeds (symmetric_matrix_rank_2k_update A2 B2 C2 t) m2 (fun _ m2' =>
    exists r1 r2, mat_holds_on m1' C1 (in_tri t) r1 /\ mat_holds_on m2' C2 (in_tri t) r2 /\ mat_le le C1 (in_tri t) r1 r2)).
Proof. exact (@syr2k_le). Qed.
Print Assumptions C102_syr2k.
Example C102_syr2k_case :
  succeeds (symmetric_matrix_rank_2k_update (row_major 0 2 2) (row_major 4 2 2) (row_major 14 2 2) Lower) data_mem (fun _ m1' =>
  succeeds (symmetric_matrix_rank_2k_update (row_major 0 2 2) (row_major 4 2 2) (row_major 14 2 2) Lower) bound_mem (fun _ m2' => exists r1 r2, mat_holds_on m1' (row_major 14 2 2) (in_tri Lower) r1 /\ mat_holds_on m2' (row_major 14 2 2) (in_tri Lower) r2 /\ dominated (r1 1 0 : F64) (r2 1 0 : F64))).
Proof.
  eapply wp_conseq; [apply (C102_syr2k F64 _ (C102_dominated _ _ _ _) data_mem bound_mem (row_major 0 2 2) (row_major 0 2 2) (row_major 4 2 2) (row_major 4 2 2) (row_major 14 2 2) (row_major 14 2 2) Lower (fm [[fl (2) 0; fl (-7) 0]; [fl (-5) 0; fl (3) 0]]) (fm [[fl (2) 0; fl (8) 0]; [fl (5) 0; fl (3) 0]]) (fm [[fl (0) 0; fl (-1) 0]; [fl (1) 0; fl (4) 0]]) (fm [[fl (1) 0; fl (1) 0]; [fl (1) 0; fl (4) 0]]) (fm [[fl (1) 0; fl (-2) 0]; [fl (3) 0; fl (-4) 0]]) (fm [[fl (1) 0; fl (2) 0]; [fl (3) 0; fl (5) 0]])); conc|].
  intros u m1' K. eapply wp_conseq; [exact K|]. intros u2 m2' (r1 & r2 & K1 & K2 & K3). exists r1, r2. split; [exact K1|split; [exact K2|]].
  apply K3; [simpl; lia|simpl; lia|first [exact I | simpl; lia]].
Qed.

(** C += A B^H + B A^H on one triangle *)
Theorem C102_her2k : forall (O : ops) (le : O -> O -> Prop), monotone O le -> forall (m1 m2 : mem O) A1 A2 B1 B2 C1 C2 t a1 a2 b1 b2 c1 c2,
  ext0 C1 = ext1 C1 -> ext0 A1 = ext0 C1 -> ext0 B1 = ext0 C1 -> ext1 B1 = ext1 A1 ->
  mat_holds m1 A1 a1 -> mat_holds m1 B1 b1 -> mat_holds_on m1 C1 (in_tri t) c1 -> mwritable_on C1 (in_tri t) ->
  disjoint (mcells A1) (mcells_on C1 (in_tri t)) -> disjoint (mcells B1) (mcells_on C1 (in_tri t)) ->
  ext0 C2 = ext1 C2 -> ext0 A2 = ext0 C2 -> ext0 B2 = ext0 C2 -> ext1 B2 = ext1 A2 ->
  mat_holds m2 A2 a2 -> mat_holds m2 B2 b2 -> mat_holds_on m2 C2 (in_tri t) c2 -> mwritable_on C2 (in_tri t) ->
  disjoint (mcells A2) (mcells_on C2 (in_tri t)) -> disjoint (mcells B2) (mcells_on C2 (in_tri t)) ->
  same_shape A1 A2 -> same_shape B1 B2 -> same_shape C1 C2 ->
  mat_le le A1 all2 a1 a2 -> mat_le le B1 all2 b1 b2 -> mat_le le C1 (in_tri t) c1 c2 ->
  succeeds (hermitian_matrix_rank_2k_update A1 B1 C1 t) m1 (fun _ m1' =>
  succeeds (hermitian_matrix_rank_2k_update A2 B2 C2 t) m2 (fun _ m2' =>
    exists r1 r2, mat_holds_on m1' C1 (in_tri t) r1 /\ mat_holds_on m2' C2 (in_tri t) r2 /\ mat_le le C1 (in_tri t) r1 r2)).
Proof. exact (@her2k_le). Qed.
Print Assumptions C102_her2k.
Example C102_her2k_case :
  succeeds (hermitian_matrix_rank_2k_update (row_major 0 2 2) (row_major 4 2 2) (row_major 14 2 2) Lower) data_mem (fun _ m1' =>
  succeeds (hermitian_matrix_rank_2k_update (row_major 0 2 2) (row_major 4 2 2) (row_major 14 2 2) Lower) bound_mem (fun _ m2' => exists r1 r2, mat_holds_on m1' (row_major 14 2 2) (in_tri Lower) r1 /\ mat_holds_on m2' (row_major 14 2 2) (in_tri Lower) r2 /\ dominated (r1 1 0 : F64) (r2 1 0 : F64))).
Proof.
  eapply wp_conseq; [apply (C102_her2k F64 _ (C102_dominated _ _ _ _) data_mem bound_mem (row_major 0 2 2) (row_major 0 2 2) (row_major 4 2 2) (row_major 4 2 2) (row_major 14 2 2) (row_major 14 2 2) Lower (fm [[fl (2) 0; fl (-7) 0]; [fl (-5) 0; fl (3) 0]]) (fm [[fl (2) 0; fl (8) 0]; [fl (5) 0; fl (3) 0]]) (fm [[fl (0) 0; fl (-1) 0]; [fl (1) 0; fl (4) 0]]) (fm [[fl (1) 0; fl (1) 0]; [fl (1) 0; fl (4) 0]]) (fm [[fl (1) 0; fl (-2) 0]; [fl (3) 0; fl (-4) 0]]) (fm [[fl (1) 0; fl (2) 0]; [fl (3) 0; fl (5) 0]])); conc|].
  intros u m1' K. eapply wp_conseq; [exact K|]. intros u2 m2' (r1 & r2 & K1 & K2 & K3). exists r1, r2. split; [exact K1|split; [exact K2|]].
  apply K3; [simpl; lia|simpl; lia|first [exact I | simpl; lia]].
Qed.


(** C107: triangular systems of integers that have an integer solution are solved exactly, whatever multiply-subtractions are fused. *)
From Coq Require Import List Arith ZArith Reals Lia Bool.
From Flocq Require Import Core.Core IEEE754.BinarySingleNaN.
From Verif Require Import Mem Scalar View Spec SpecI SpecExact SpecFma SpecFused Idx Norm Ieee Fma Blas2 Blas3 Wp PfExactI PfFusedI PfIntSolve Inst PropFloat.
Import ListNotations.
Local Open Scope nat_scope.

(** Used below, in binary64: A = [2 -7; -5 3], of which the lower triangle T = [2 0; -5 3] is used; b = (-2, 14) = T (-1, 3);
    B = [-2 8; 14 -35] = T [-1 4; 3 -5]; D = [-22 12; 31 -15] = [-1 4; 3 -5] T. *)
Notation FM := (fma_ops 53 1024 prec53 emax1024).
Definition solve_data : list F64 := (* test data *)
  [fl 2 0; fl (-7) 0; fl (-5) 0; fl 3 0; fl (-2) 0; fl 8 0; fl 14 0; fl (-35) 0; fl (-2) 0; fl 14 0; fl 0 0; fl 0 0; fl 0 0; fl 0 0; fl 0 0; fl 0 0;
   fl (-22) 0; fl 12 0; fl 31 0; fl (-15) 0].
Definition solve_mem : mem F64 := mem_of solve_data. (* test data *)
Definition solve_fmem : mem FM := mem_of (map exactly solve_data). (* test data *)
Definition pz (i j : nat) : Z := nth j (nth i [[2; 0]; [-5; 3]]%Z []) 0%Z. (* test data *)
Definition qz (i : nat) : Z := nth i [-2; 14]%Z 0%Z. (* test data *)
Definition sz (i : nat) : Z := nth i [-1; 3]%Z 0%Z. (* test data *)
Definition qm (i j : nat) : Z := nth j (nth i [[-2; 8]; [14; -35]]%Z []) 0%Z. (* test data *)
Definition qr (i j : nat) : Z := nth j (nth i [[-22; 12]; [31; -15]]%Z []) 0%Z. (* test data *)
Definition sm (i j : nat) : Z := nth j (nth i [[-1; 4]; [3; -5]]%Z []) 0%Z. (* test data *)
Ltac small := apply norm_int; vm_compute; discriminate.
Ltac split2 := intros; repeat match goal with K : ?k < _ |- _ => simpl in K; destruct k as [|[|k]]; [| |exfalso; clear - K; lia]; clear K end;
  try (exfalso; match goal with K : stored _ _ _ _ |- _ => destruct K as [K _]; simpl in K; clear - K; lia end).
Ltac conc := unfold solve_mem, solve_fmem, solve_data;
  match goal with
  | |- triangular_z _ _ _ => split; [intros [|[|i]] [|[|j]] K; try reflexivity; try (exfalso; apply K; simpl; lia);
        unfold pz; simpl; try destruct i; try destruct j; try reflexivity; exfalso; apply K; simpl; lia|intros; discriminate]
  | |- _ = Explicit -> _ => intros _; split2; discriminate
  | |- context [int_valued] => split2; small
  | |- context [surely] => split2; apply surely_exactly; small
  | |- forall i, i < _ -> zsum _ _ = _ /\ _ => split2; (split; [reflexivity|vm_compute; discriminate])
  | _ => concrete; try solve [intros; reflexivity | vm_compute; split; discriminate | intros; vm_compute; split; discriminate | discriminate | intros; discriminate]
  end.

(** * Every operation rounded *)
(** T x = b *)
Theorem C107_trsv : forall prec emax (Hp : FLX.Prec_gt_0 prec) (He : Prec_lt_emax prec emax) ty (m : mem (ieee_ops prec emax Hp He)) A t d B X a b p q s,
  fits ty (ext0 A) -> (ext0 A = 0 -> t = Upper -> ty <> U32) ->
  ext0 A = ext1 A -> vext B = ext0 A -> vext X = ext0 A ->
  mat_holds_on m A (stored t d) a -> vec_holds m B b -> vwritable X -> allocated m (vcells X) ->
  disjoint (mcells_on A (stored t d)) (vcells X) -> disjoint_or_aligned_v B X ->
  (forall i j, i < ext0 A -> j < ext1 A -> stored t d i j -> int_valued (a i j) (p i j)) -> (forall i, i < vext B -> int_valued (b i) (q i)) ->
  triangular_z t d p -> (d = Explicit -> forall i, i < ext0 A -> p i i <> 0%Z) ->
  (forall i, i < ext0 A -> zsum (ext0 A) (fun k => p i k * s k)%Z = q i /\ fits_in prec (Z.abs (q i) + zsum (ext0 A) (fun k => Z.abs (p i k * s k)))) ->
  succeeds (triangular_matrix_vector_solve ty A t d B X) m (fun _ m' => exists r, vec_holds m' X r /\ forall i, i < vext X -> int_valued (r i) (s i)).
Proof.
  exact (fun prec emax Hp He => @trsv_iv (ieee_ops prec emax Hp He) (2 ^ prec) (@int_valued prec emax) (@int_mul prec emax Hp He) (@int_sub prec emax Hp He) (@int_div prec emax Hp He)).
Qed.
Print Assumptions C107_trsv.
Example C107_trsv_case : succeeds (triangular_matrix_vector_solve I32 (row_major 0 2 2) Lower Explicit (vec_at 8 2) (vec_at 10 2)) solve_mem (fun _ m' => exists r, vec_holds m' (vec_at 10 2) r /\ int_valued (r 1 : F64) 3).
Proof.
  eapply wp_conseq; [apply (C107_trsv 53 1024 prec53 emax1024 I32 solve_mem (row_major 0 2 2) Lower Explicit (vec_at 8 2) (vec_at 10 2) (fun i j => nth (0 + 2 * i + j) solve_data (fl 0 0)) (fun i => nth (8 + i) solve_data (fl 0 0)) pz qz sz); conc|].
  intros u m' (r & K1 & K2). exists r. split; [exact K1|]. apply (K2 1); simpl; lia.
Qed.

(** T X = B, column by column *)
Theorem C107_trsm_left : forall prec emax (Hp : FLX.Prec_gt_0 prec) (He : Prec_lt_emax prec emax) ty (m : mem (ieee_ops prec emax Hp He)) A t d B X a b p (q s : nat -> nat -> Z),
  fits ty (ext0 A) -> (ext0 A = 0 -> t = Upper -> ty <> U32) ->
  ext0 A = ext1 A -> ext0 B = ext0 A -> ext0 X = ext0 A -> ext1 X = ext1 B ->
  mat_holds_on m A (stored t d) a -> mat_holds m B b -> mwritable X -> allocated m (mcells X) ->
  disjoint (mcells_on A (stored t d)) (mcells X) -> disjoint_or_aligned_m B X ->
  (forall i j, i < ext0 A -> j < ext1 A -> stored t d i j -> int_valued (a i j) (p i j)) -> (forall i j, i < ext0 B -> j < ext1 B -> int_valued (b i j) (q i j)) ->
  triangular_z t d p -> (d = Explicit -> forall i, i < ext0 A -> p i i <> 0%Z) ->
  succeeds (triangular_matrix_matrix_left_solve ty A t d B X) m (fun _ m' => exists r, mat_holds m' X r /\ forall j, j < ext1 X ->
    (forall i, i < ext0 A -> zsum (ext0 A) (fun k => p i k * s k j)%Z = q i j /\ fits_in prec (Z.abs (q i j) + zsum (ext0 A) (fun k => Z.abs (p i k * s k j)))) ->
    forall i, i < ext0 X -> int_valued (r i j) (s i j)).
Proof.
  exact (fun prec emax Hp He => @trsm_left_iv (ieee_ops prec emax Hp He) (2 ^ prec) (@int_valued prec emax) (@int_mul prec emax Hp He) (@int_sub prec emax Hp He) (@int_div prec emax Hp He)).
Qed.
Print Assumptions C107_trsm_left.
Example C107_trsm_left_case : succeeds (triangular_matrix_matrix_left_solve I32 (row_major 0 2 2) Lower Explicit (row_major 4 2 2) (row_major 12 2 2)) solve_mem (fun _ m' => exists r, mat_holds m' (row_major 12 2 2) r /\ int_valued (r 1 1 : F64) (-5)).
Proof.
  eapply wp_conseq; [apply (C107_trsm_left 53 1024 prec53 emax1024 I32 solve_mem (row_major 0 2 2) Lower Explicit (row_major 4 2 2) (row_major 12 2 2) (fun i j => nth (0 + 2 * i + j) solve_data (fl 0 0)) (fun i j => nth (4 + 2 * i + j) solve_data (fl 0 0)) pz qm sm); conc|].
  intros u m' (r & K1 & K2). exists r. split; [exact K1|]. apply (K2 1); [simpl; lia| |simpl; lia]. split2; (split; [reflexivity|vm_compute; discriminate]).
Qed.

(** X T = B, row by row *)
Theorem C107_trsm_right : forall prec emax (Hp : FLX.Prec_gt_0 prec) (He : Prec_lt_emax prec emax) ty (m : mem (ieee_ops prec emax Hp He)) A t d B X a b p (q s : nat -> nat -> Z),
  (t = Lower -> fits (make_signed ty) (ext0 A)) ->
  ext0 A = ext1 A -> ext1 B = ext0 A -> ext1 X = ext0 A -> ext0 X = ext0 B ->
  mat_holds_on m A (stored t d) a -> mat_holds m B b -> mwritable X -> allocated m (mcells X) ->
  disjoint (mcells_on A (stored t d)) (mcells X) -> disjoint_or_aligned_m B X ->
  (forall i j, i < ext0 A -> j < ext1 A -> stored t d i j -> int_valued (a i j) (p i j)) -> (forall i j, i < ext0 B -> j < ext1 B -> int_valued (b i j) (q i j)) ->
  triangular_z t d p -> (d = Explicit -> forall i, i < ext0 A -> p i i <> 0%Z) ->
  succeeds (triangular_matrix_matrix_right_solve ty A t d B X) m (fun _ m' => exists r, mat_holds m' X r /\ forall i, i < ext0 X ->
    (forall j, j < ext0 A -> zsum (ext0 A) (fun k => s i k * p k j)%Z = q i j /\ fits_in prec (Z.abs (q i j) + zsum (ext0 A) (fun k => Z.abs (s i k * p k j)))) ->
    forall j, j < ext1 X -> int_valued (r i j) (s i j)).
Proof.
  exact (fun prec emax Hp He => @trsm_right_iv (ieee_ops prec emax Hp He) (2 ^ prec) (@int_valued prec emax) (@int_mul prec emax Hp He) (@int_sub prec emax Hp He) (@int_div prec emax Hp He)).
Qed.
Print Assumptions C107_trsm_right.
Example C107_trsm_right_case : succeeds (triangular_matrix_matrix_right_solve I32 (row_major 0 2 2) Lower Explicit (row_major 16 2 2) (row_major 12 2 2)) solve_mem (fun _ m' => exists r, mat_holds m' (row_major 12 2 2) r /\ int_valued (r 1 1 : F64) (-5)).
Proof.
  eapply wp_conseq; [apply (C107_trsm_right 53 1024 prec53 emax1024 I32 solve_mem (row_major 0 2 2) Lower Explicit (row_major 16 2 2) (row_major 12 2 2) (fun i j => nth (0 + 2 * i + j) solve_data (fl 0 0)) (fun i j => nth (16 + 2 * i + j) solve_data (fl 0 0)) pz qr sm); conc|].
  intros u m' (r & K1 & K2). exists r. split; [exact K1|]. apply (K2 1); [simpl; lia| |simpl; lia]. split2; (split; [reflexivity|vm_compute; discriminate]).
Qed.

(** * Whatever is fused *)
(** T x = b *)
Theorem C107_trsv_fused : forall prec emax (Hp : FLX.Prec_gt_0 prec) (He : Prec_lt_emax prec emax) ty (m : mem (fma_ops prec emax Hp He)) A t d B X a b p q s,
  fits ty (ext0 A) -> (ext0 A = 0 -> t = Upper -> ty <> U32) ->
  ext0 A = ext1 A -> vext B = ext0 A -> vext X = ext0 A ->
  mat_holds_on m A (stored t d) a -> vec_holds m B b -> vwritable X -> allocated m (vcells X) ->
  disjoint (mcells_on A (stored t d)) (vcells X) -> disjoint_or_aligned_v B X ->
  (forall i j, i < ext0 A -> j < ext1 A -> stored t d i j -> surely (a i j) (p i j)) -> (forall i, i < vext B -> surely (b i) (q i)) ->
  triangular_z t d p -> (d = Explicit -> forall i, i < ext0 A -> p i i <> 0%Z) ->
  (forall i, i < ext0 A -> zsum (ext0 A) (fun k => p i k * s k)%Z = q i /\ fits_in prec (Z.abs (q i) + zsum (ext0 A) (fun k => Z.abs (p i k * s k)))) ->
  succeeds (triangular_matrix_vector_solve ty A t d B X) m (fun _ m' => exists r, vec_holds m' X r /\ forall i, i < vext X -> surely (r i) (s i)).
Proof.
  exact (fun prec emax Hp He => @trsv_iv (fma_ops prec emax Hp He) (2 ^ prec) (@surely prec emax) (@surely_mul prec emax Hp He) (@surely_sub prec emax Hp He) (@surely_div prec emax Hp He)).
Qed.
Print Assumptions C107_trsv_fused.
Example C107_trsv_fused_case : succeeds (triangular_matrix_vector_solve I32 (row_major 0 2 2) Lower Explicit (vec_at 8 2) (vec_at 10 2)) solve_fmem (fun _ m' => exists r, vec_holds m' (vec_at 10 2) r /\ surely (r 1 : poss 53 1024) 3).
Proof.
  eapply wp_conseq; [apply (C107_trsv_fused 53 1024 prec53 emax1024 I32 solve_fmem (row_major 0 2 2) Lower Explicit (vec_at 8 2) (vec_at 10 2) (fun i j => exactly (nth (0 + 2 * i + j) solve_data (fl 0 0))) (fun i => exactly (nth (8 + i) solve_data (fl 0 0))) pz qz sz); conc|].
  intros u m' (r & K1 & K2). exists r. split; [exact K1|]. apply (K2 1); simpl; lia.
Qed.

(** T X = B, column by column *)
Theorem C107_trsm_left_fused : forall prec emax (Hp : FLX.Prec_gt_0 prec) (He : Prec_lt_emax prec emax) ty (m : mem (fma_ops prec emax Hp He)) A t d B X a b p (q s : nat -> nat -> Z),
  fits ty (ext0 A) -> (ext0 A = 0 -> t = Upper -> ty <> U32) ->
  ext0 A = ext1 A -> ext0 B = ext0 A -> ext0 X = ext0 A -> ext1 X = ext1 B ->
  mat_holds_on m A (stored t d) a -> mat_holds m B b -> mwritable X -> allocated m (mcells X) ->
  disjoint (mcells_on A (stored t d)) (mcells X) -> disjoint_or_aligned_m B X ->
  (forall i j, i < ext0 A -> j < ext1 A -> stored t d i j -> surely (a i j) (p i j)) -> (forall i j, i < ext0 B -> j < ext1 B -> surely (b i j) (q i j)) ->
  triangular_z t d p -> (d = Explicit -> forall i, i < ext0 A -> p i i <> 0%Z) ->
  succeeds (triangular_matrix_matrix_left_solve ty A t d B X) m (fun _ m' => exists r, mat_holds m' X r /\ forall j, j < ext1 X ->
    (forall i, i < ext0 A -> zsum (ext0 A) (fun k => p i k * s k j)%Z = q i j /\ fits_in prec (Z.abs (q i j) + zsum (ext0 A) (fun k => Z.abs (p i k * s k j)))) ->
    forall i, i < ext0 X -> surely (r i j) (s i j)).
Proof.
  exact (fun prec emax Hp He => @trsm_left_iv (fma_ops prec emax Hp He) (2 ^ prec) (@surely prec emax) (@surely_mul prec emax Hp He) (@surely_sub prec emax Hp He) (@surely_div prec emax Hp He)).
Qed.
Print Assumptions C107_trsm_left_fused.
Example C107_trsm_left_fused_case : succeeds (triangular_matrix_matrix_left_solve I32 (row_major 0 2 2) Lower Explicit (row_major 4 2 2) (row_major 12 2 2)) solve_fmem (fun _ m' => exists r, mat_holds m' (row_major 12 2 2) r /\ surely (r 1 1 : poss 53 1024) (-5)).
Proof.
  eapply wp_conseq; [apply (C107_trsm_left_fused 53 1024 prec53 emax1024 I32 solve_fmem (row_major 0 2 2) Lower Explicit (row_major 4 2 2) (row_major 12 2 2) (fun i j => exactly (nth (0 + 2 * i + j) solve_data (fl 0 0))) (fun i j => exactly (nth (4 + 2 * i + j) solve_data (fl 0 0))) pz qm sm); conc|].
  intros u m' (r & K1 & K2). exists r. split; [exact K1|]. apply (K2 1); [simpl; lia| |simpl; lia]. split2; (split; [reflexivity|vm_compute; discriminate]).
Qed.

(** X T = B, row by row *)
Theorem C107_trsm_right_fused : forall prec emax (Hp : FLX.Prec_gt_0 prec) (He : Prec_lt_emax prec emax) ty (m : mem (fma_ops prec emax Hp He)) A t d B X a b p (q s : nat -> nat -> Z),
  (t = Lower -> fits (make_signed ty) (ext0 A)) ->
  ext0 A = ext1 A -> ext1 B = ext0 A -> ext1 X = ext0 A -> ext0 X = ext0 B ->
  mat_holds_on m A (stored t d) a -> mat_holds m B b -> mwritable X -> allocated m (mcells X) ->
  disjoint (mcells_on A (stored t d)) (mcells X) -> disjoint_or_aligned_m B X ->
  (forall i j, i < ext0 A -> j < ext1 A -> stored t d i j -> surely (a i j) (p i j)) -> (forall i j, i < ext0 B -> j < ext1 B -> surely (b i j) (q i j)) ->
  triangular_z t d p -> (d = Explicit -> forall i, i < ext0 A -> p i i <> 0%Z) ->
  succeeds (triangular_matrix_matrix_right_solve ty A t d B X) m (fun _ m' => exists r, mat_holds m' X r /\ forall i, i < ext0 X ->
    (forall j, j < ext0 A -> zsum (ext0 A) (fun k => s i k * p k j)%Z = q i j /\ fits_in prec (Z.abs (q i j) + zsum (ext0 A) (fun k => Z.abs (s i k * p k j)))) ->
    forall j, j < ext1 X -> surely (r i j) (s i j)).
Proof.
  exact (fun prec emax Hp He => @trsm_right_iv (fma_ops prec emax Hp He) (2 ^ prec) (@surely prec emax) (@surely_mul prec emax Hp He) (@surely_sub prec emax Hp He) (@surely_div prec emax Hp He)).
Qed.
Print Assumptions C107_trsm_right_fused.
Example C107_trsm_right_fused_case : succeeds (triangular_matrix_matrix_right_solve I32 (row_major 0 2 2) Lower Explicit (row_major 16 2 2) (row_major 12 2 2)) solve_fmem (fun _ m' => exists r, mat_holds m' (row_major 12 2 2) r /\ surely (r 1 1 : poss 53 1024) (-5)).
Proof.
  eapply wp_conseq; [apply (C107_trsm_right_fused 53 1024 prec53 emax1024 I32 solve_fmem (row_major 0 2 2) Lower Explicit (row_major 16 2 2) (row_major 12 2 2) (fun i j => exactly (nth (0 + 2 * i + j) solve_data (fl 0 0))) (fun i j => exactly (nth (16 + 2 * i + j) solve_data (fl 0 0))) pz qr sm); conc|].
  intros u m' (r & K1 & K2). exists r. split; [exact K1|]. apply (K2 1); [simpl; lia| |simpl; lia]. split2; (split; [reflexivity|vm_compute; discriminate]).
Qed.


(** C76: triangular solves with matrices of signed integers. *)
From Coq Require Import List Arith ZArith NArith Lia Bool.
From Verif Require Import Mem Scalar View Spec SpecR SpecI Norm Int Blas1 Blas2 Blas3 Wp PfInt PfInt2 PfInt3 Idx Inst PropInt.
Import ListNotations.
Local Open Scope Z_scope.

(** Every column of the left solve is the solution by substitution with truncating quotients. *)
Theorem C76_matrix_solve : forall w ty (m : mem (sint_ops w)) A t d B X (a b x : nat -> nat -> Z),
  fits ty (ext0 A) -> (ext0 A = 0%nat -> t = Upper -> ty <> U32) ->
  ext0 A = ext1 A -> ext0 B = ext0 A -> ext0 X = ext0 A -> ext1 X = ext1 B ->
  mat_holds_on m A (stored t d) (fun i j => Some (a i j)) -> mat_holds m B (fun i j => Some (b i j)) -> mwritable X -> allocated m (mcells X) ->
  disjoint (mcells_on A (stored t d)) (mcells X) -> disjoint_or_aligned_m B X ->
  (d = Explicit -> forall i, (i < ext0 A)%nat -> a i i <> 0) ->
  (forall i j, (i < ext0 A)%nat -> (j < ext1 B)%nat ->
    let r := b i j - zbefore t (ext0 A) i (fun k => a i k * x k j) in
    x i j = match d with Explicit => Z.quot r (a i i) | ImplicitUnit => r end) ->
  (forall i j, (i < ext0 A)%nat -> (j < ext1 B)%nat -> Z.abs (b i j) + zbefore t (ext0 A) i (fun k => Z.abs (a i k * x k j)) <= int_max w) ->
  succeeds (triangular_matrix_matrix_left_solve ty A t d B X) m (fun _ m' =>
    mat_holds m' X (fun i j => Some (x i j)) /\ changes_only m m' (mcells X)).
Proof. exact trsm_left_trunc. Qed.
Print Assumptions C76_matrix_solve.
(** [2 .; 1 3] X = [-7; 9] *)
Example C76_matrix_solve_case :
  let m : mem I32 := mem_of [si 2; si 77; si 1; si 3; si (-7); si 9] in
  succeeds (triangular_matrix_matrix_left_solve I64 (row_major 0 2 2) Lower Explicit (row_major 4 2 1) (row_major 4 2 1)) m (fun _ m' =>
    mat_holds m' (row_major 4 2 1) (fun i j => Some (zmm [[-3]; [4]] i j) : I32) /\ changes_only m m' (mcells (O := I32) (row_major 4 2 1))).
Proof.
  intros. apply (C76_matrix_solve 32 I64 m (row_major 0 2 2) Lower Explicit (row_major 4 2 1) (row_major 4 2 1) (zmm [[2;77];[1;3]]) (zmm [[-7]; [9]]) (zmm [[-3]; [4]]));
    try (intros [|[|i]] [|[|j]] Hi Hj; simpl in Hi, Hj; try lia; vm_compute; congruence);
    try (intros _; intros [|[|i]] Hi; simpl in Hi; try lia; vm_compute; discriminate);
    try (intros _; split; vm_compute; discriminate);
    first [reflexivity | solve [concrete] | split; vm_compute; discriminate | discriminate | simpl; lia].
Qed.

(** The same for the right solve, row by row; the substitution runs over the columns in the opposite direction. *)
Theorem C76_right_solve : forall w ty (m : mem (sint_ops w)) A t d B X (a b x : nat -> nat -> Z),
  (t = Lower -> fits (make_signed ty) (ext0 A)) ->
  ext0 A = ext1 A -> ext1 B = ext0 A -> ext1 X = ext0 A -> ext0 X = ext0 B ->
  mat_holds_on m A (stored t d) (fun i j => Some (a i j)) -> mat_holds m B (fun i j => Some (b i j)) -> mwritable X -> allocated m (mcells X) ->
  disjoint (mcells_on A (stored t d)) (mcells X) -> disjoint_or_aligned_m B X ->
  (d = Explicit -> forall i, (i < ext0 A)%nat -> a i i <> 0) ->
  (forall i j, (i < ext0 B)%nat -> (j < ext0 A)%nat ->
    let r := b i j - zbefore (match t with Lower => Upper | Upper => Lower end) (ext0 A) j (fun k => x i k * a k j) in
    x i j = match d with Explicit => Z.quot r (a j j) | ImplicitUnit => r end) ->
  (forall i j, (i < ext0 B)%nat -> (j < ext0 A)%nat -> Z.abs (b i j) + zbefore (match t with Lower => Upper | Upper => Lower end) (ext0 A) j (fun k => Z.abs (x i k * a k j)) <= int_max w) ->
  succeeds (triangular_matrix_matrix_right_solve ty A t d B X) m (fun _ m' =>
    mat_holds m' X (fun i j => Some (x i j)) /\ changes_only m m' (mcells X)).
Proof. exact trsm_right_trunc. Qed.
Print Assumptions C76_right_solve.
(** X [2 .; 1 3] = [-8 10]: x1 = 10 / 3 = 3, x0 = (-8 - 3) / 2 = -5 *)
Example C76_right_solve_case :
  let m : mem I32 := mem_of [si 2; si 77; si 1; si 3; si (-8); si 10] in
  succeeds (triangular_matrix_matrix_right_solve I64 (row_major 0 2 2) Lower Explicit (row_major 4 1 2) (row_major 4 1 2)) m (fun _ m' =>
    mat_holds m' (row_major 4 1 2) (fun i j => Some (zmm [[-5; 3]] i j) : I32) /\ changes_only m m' (mcells (O := I32) (row_major 4 1 2))).
Proof.
  intros. apply (C76_right_solve 32 I64 m (row_major 0 2 2) Lower Explicit (row_major 4 1 2) (row_major 4 1 2) (zmm [[2;77];[1;3]]) (zmm [[-8; 10]]) (zmm [[-5; 3]]));
    try (intros [|[|i]] [|[|j]] Hi Hj; simpl in Hi, Hj; try lia; vm_compute; congruence);
    try (intros _; intros [|[|i]] Hi; simpl in Hi; try lia; vm_compute; discriminate);
    try (intros _; split; vm_compute; discriminate);
    first [reflexivity | solve [concrete] | split; vm_compute; discriminate | discriminate | simpl; lia].
Qed.

(** If X A = B has an integer solution, the right solve finds it. *)
Theorem C76_right_solve_exact : forall w ty (m : mem (sint_ops w)) A t d B X (a b x : nat -> nat -> Z),
  (t = Lower -> fits (make_signed ty) (ext0 A)) ->
  ext0 A = ext1 A -> ext1 B = ext0 A -> ext1 X = ext0 A -> ext0 X = ext0 B ->
  mat_holds_on m A (stored t d) (fun i j => Some (a i j)) -> mat_holds m B (fun i j => Some (b i j)) -> mwritable X -> allocated m (mcells X) ->
  disjoint (mcells_on A (stored t d)) (mcells X) -> disjoint_or_aligned_m B X ->
  (d = Explicit -> forall i, (i < ext0 A)%nat -> a i i <> 0) ->
  (forall i j, (i < ext0 B)%nat -> (j < ext0 A)%nat -> zsum (ext0 A) (fun k => x i k * ztri t d a k j) = b i j) ->
  (forall i j, (i < ext0 B)%nat -> (j < ext0 A)%nat -> Z.abs (b i j) + zbefore (match t with Lower => Upper | Upper => Lower end) (ext0 A) j (fun k => Z.abs (x i k * a k j)) <= int_max w) ->
  succeeds (triangular_matrix_matrix_right_solve ty A t d B X) m (fun _ m' =>
    mat_holds m' X (fun i j => Some (x i j)) /\ changes_only m m' (mcells X)).
Proof. exact trsm_right_exact. Qed.
Print Assumptions C76_right_solve_exact.
(** X [2 1; . -3] = [6 -3]: x0 = 3, x1 = 2 *)
Example C76_right_solve_exact_case :
  let m : mem I32 := mem_of [si 2; si 1; si 77; si (-3); si 6; si (-3)] in
  succeeds (triangular_matrix_matrix_right_solve U32 (row_major 0 2 2) Upper Explicit (row_major 4 1 2) (row_major 4 1 2)) m (fun _ m' =>
    mat_holds m' (row_major 4 1 2) (fun i j => Some (zmm [[3; 2]] i j) : I32) /\ changes_only m m' (mcells (O := I32) (row_major 4 1 2))).
Proof.
  intros. apply (C76_right_solve_exact 32 U32 m (row_major 0 2 2) Upper Explicit (row_major 4 1 2) (row_major 4 1 2) (zmm [[2;1];[77;-3]]) (zmm [[6; -3]]) (zmm [[3; 2]]));
    try (intros [|[|i]] [|[|j]] Hi Hj; simpl in Hi, Hj; try lia; vm_compute; congruence);
    try (intros _; intros [|[|i]] Hi; simpl in Hi; try lia; vm_compute; discriminate);
    try (intros _; split; vm_compute; discriminate);
    first [reflexivity | solve [concrete] | split; vm_compute; discriminate | discriminate | simpl; lia].
Qed.

(** A zero on the diagonal is a division by zero in every column, or row, of the result. *)
Theorem C76_matrix_solve_zero_diagonal : forall w ty (m : mem (sint_ops w)) A t B X (a b : nat -> nat -> Z) i,
  fits ty (ext0 A) -> ext0 A = ext1 A -> ext0 B = ext0 A -> ext0 X = ext0 A -> ext1 X = ext1 B ->
  mat_holds_on m A (stored t Explicit) (fun i j => Some (a i j)) -> mat_holds m B (fun i j => Some (b i j)) -> mwritable X -> allocated m (mcells X) ->
  disjoint (mcells_on A (stored t Explicit)) (mcells X) -> disjoint_or_aligned_m B X ->
  (i < ext0 A)%nat -> a i i = 0 ->
  succeeds (triangular_matrix_matrix_left_solve ty A t Explicit B X) m (fun _ m' =>
    exists f : nat -> nat -> option Z, mat_holds (O := sint_ops w) m' X f /\ forall j, (j < ext1 X)%nat -> f i j = None).
Proof. exact trsm_left_div0. Qed.
Print Assumptions C76_matrix_solve_zero_diagonal.
Example C76_matrix_solve_zero_diagonal_case :
  succeeds (triangular_matrix_matrix_left_solve I64 (row_major 0 1 1) Lower Explicit (row_major 1 1 1) (row_major 1 1 1)) (mem_of [si 0; si 5] : mem I32) (fun _ m' =>
    exists f : nat -> nat -> option Z, mat_holds (O := I32) m' (row_major 1 1 1) f /\ forall j, (j < 1)%nat -> f 0%nat j = None).
Proof.
  apply (C76_matrix_solve_zero_diagonal 32 I64 _ (row_major 0 1 1) Lower (row_major 1 1 1) (row_major 1 1 1) (zmm [[0]]) (zmm [[5]]));
    try (intros [|[|i]] [|[|j]] Hi Hj; simpl in Hi, Hj; try lia; vm_compute; congruence);
    try (intros _; intros [|[|i]] Hi; simpl in Hi; try lia; vm_compute; discriminate);
    try (intros _; split; vm_compute; discriminate);
    first [reflexivity | solve [concrete] | split; vm_compute; discriminate | discriminate | simpl; lia].
Qed.

Theorem C76_right_solve_zero_diagonal : forall w ty (m : mem (sint_ops w)) A t B X (a b : nat -> nat -> Z) j,
  (t = Lower -> fits (make_signed ty) (ext0 A)) ->
  ext0 A = ext1 A -> ext1 B = ext0 A -> ext1 X = ext0 A -> ext0 X = ext0 B ->
  mat_holds_on m A (stored t Explicit) (fun i j => Some (a i j)) -> mat_holds m B (fun i j => Some (b i j)) -> mwritable X -> allocated m (mcells X) ->
  disjoint (mcells_on A (stored t Explicit)) (mcells X) -> disjoint_or_aligned_m B X ->
  (j < ext0 A)%nat -> a j j = 0 ->
  succeeds (triangular_matrix_matrix_right_solve ty A t Explicit B X) m (fun _ m' =>
    exists f : nat -> nat -> option Z, mat_holds (O := sint_ops w) m' X f /\ forall i, (i < ext0 X)%nat -> f i j = None).
Proof. exact trsm_right_div0. Qed.
Print Assumptions C76_right_solve_zero_diagonal.
Example C76_right_solve_zero_diagonal_case :
  succeeds (triangular_matrix_matrix_right_solve I64 (row_major 0 1 1) Lower Explicit (row_major 1 1 1) (row_major 1 1 1)) (mem_of [si 0; si 5] : mem I32) (fun _ m' =>
    exists f : nat -> nat -> option Z, mat_holds (O := I32) m' (row_major 1 1 1) f /\ forall i, (i < 1)%nat -> f i 0%nat = None).
Proof.
  apply (C76_right_solve_zero_diagonal 32 I64 _ (row_major 0 1 1) Lower (row_major 1 1 1) (row_major 1 1 1) (zmm [[0]]) (zmm [[5]]));
    try (intros [|[|i]] [|[|j]] Hi Hj; simpl in Hi, Hj; try lia; vm_compute; congruence);
    try (intros _; intros [|[|i]] Hi; simpl in Hi; try lia; vm_compute; discriminate);
    try (intros _; split; vm_compute; discriminate);
    first [reflexivity | solve [concrete] | split; vm_compute; discriminate | discriminate | simpl; lia].
Qed.


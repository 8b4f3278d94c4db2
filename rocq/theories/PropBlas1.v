(** Properties C06-C10, C12, C20: BLAS-1 algorithms. *)
From Coq Require Import List Arith ZArith NArith Lia Bool QArith Qcanon.
From Verif Require Import Mem Scalar View Spec Wp Sums Alg Blas1 PfBlas1 PfGivensApply Inst.
Import ListNotations.
Local Open Scope nat_scope.

(** * C06 *)
Theorem C06_copy_vector : forall (O : ops) (m : mem O) (x y : vec O) (f : nat -> O),
  vext x = vext y -> vec_holds m x f -> vwritable y -> allocated m (vcells y) ->
  disjoint_or_aligned_v x y ->
  succeeds (copy_1 x y) m (fun _ m' => vec_holds m' y f /\ changes_only m m' (vcells y)).
Proof. exact (@copy_1_ok). Qed.
Print Assumptions C06_copy_vector.

Theorem C06_copy_matrix : forall (O : ops) (m : mem O) (x y : mat O) (f : nat -> nat -> O),
  ext0 x = ext0 y -> ext1 x = ext1 y -> mat_holds m x f -> mwritable y -> allocated m (mcells y) ->
  disjoint_or_aligned_m x y ->
  succeeds (copy_2 x y) m (fun _ m' => mat_holds m' y f /\ changes_only m m' (mcells y)).
Proof. exact (@copy_2_ok). Qed.
Print Assumptions C06_copy_matrix.

(** A 2x3 row-major conjugated view copied into a column-major matrix; cell 12 is not touched. *)
Example C06_case :
  let m : mem gops := mem_of [(1,2);(3,4);(5,6);(7,8);(9,10);(11,12); (0,0);(0,0);(0,0);(0,0);(0,0);(0,0);(99,99)]%Z in
  let A := conjugated_m false false (row_major 0 2 3) in
  let B := col_major 6 2 3 in
  let f := gm [[(1,-2);(3,-4);(5,-6)];[(7,-8);(9,-10);(11,-12)]]%Z in
  succeeds (copy_2 A B) m (fun _ m' => mat_holds m' B f /\ changes_only m m' (mcells B)).
Proof. intros. apply C06_copy_matrix; concrete. Qed.

(** * C07 *)
Theorem C07_swap_vector : forall (O : ops) (m : mem O) (x y : vec O) (f g : nat -> O),
  vext x = vext y -> vec_holds m x f -> vec_holds m y g -> vwritable x -> vwritable y ->
  disjoint (vcells x) (vcells y) ->
  succeeds (swap_1 x y) m (fun _ m' => vec_holds m' x g /\ vec_holds m' y f /\
    changes_only m m' (fun a => vcells x a \/ vcells y a)).
Proof. exact (@swap_1_ok). Qed.
Print Assumptions C07_swap_vector.

Theorem C07_swap_matrix : forall (O : ops) (m : mem O) (x y : mat O) (f g : nat -> nat -> O),
  ext0 x = ext0 y -> ext1 x = ext1 y -> mat_holds m x f -> mat_holds m y g -> mwritable x -> mwritable y ->
  disjoint (mcells x) (mcells y) ->
  succeeds (swap_2 x y) m (fun _ m' => mat_holds m' x g /\ mat_holds m' y f /\
    changes_only m m' (fun a => mcells x a \/ mcells y a)).
Proof. exact (@swap_2_ok). Qed.
Print Assumptions C07_swap_matrix.

Theorem C07_swap_vector_twice : forall (O : ops) (m : mem O) (x y : vec O) (f g : nat -> O),
  vext x = vext y -> vec_holds m x f -> vec_holds m y g -> vwritable x -> vwritable y ->
  disjoint (vcells x) (vcells y) ->
  succeeds (bind (swap_1 x y) (fun _ => swap_1 x y)) m (fun _ m' => same_memory m m').
Proof. exact (@swap_1_twice). Qed.
Print Assumptions C07_swap_vector_twice.

Theorem C07_swap_matrix_twice : forall (O : ops) (m : mem O) (x y : mat O) (f g : nat -> nat -> O),
  ext0 x = ext0 y -> ext1 x = ext1 y -> mat_holds m x f -> mat_holds m y g -> mwritable x -> mwritable y ->
  disjoint (mcells x) (mcells y) ->
  succeeds (bind (swap_2 x y) (fun _ => swap_2 x y)) m (fun _ m' => same_memory m m').
Proof. exact (@swap_2_twice). Qed.
Print Assumptions C07_swap_matrix_twice.

(** A row of a row-major 2x3 matrix is swapped with a column of another (a strided vector). *)
Example C07_case :
  let m : mem zops := mem_of [1;2; 7; 3;4; 8; 5;6; 9]%Z in
  let x := Vec 0 2 (fun i => i) ADefault in
  let y := Vec 2 2 (fun i => 3 * i) ADefault in
  succeeds (swap_1 x y) m (fun _ m' => vec_holds m' x (zv [7;8]%Z) /\ vec_holds m' y (zv [1;2]%Z) /\
    changes_only m m' (fun a => vcells x a \/ vcells y a)) /\
  succeeds (bind (swap_1 x y) (fun _ => swap_1 x y)) m (fun _ m' => same_memory m m').
Proof.
  intros. split.
  - apply C07_swap_vector; concrete.
  - apply C07_swap_vector_twice with (f := zv [1;2]%Z) (g := zv [7;8]%Z); concrete.
Qed.
Example C07_case_matrix :
  let m : mem zops := mem_of [1;2;3;4;5;6; 10;20;30;40;50;60; 77]%Z in
  let x := row_major 0 2 3 in
  let y := col_major 6 2 3 in
  let f := zm [[1;2;3];[4;5;6]]%Z in
  let g := zm [[10;30;50];[20;40;60]]%Z in
  succeeds (swap_2 x y) m (fun _ m' => mat_holds m' x g /\ mat_holds m' y f /\
    changes_only m m' (fun a => mcells x a \/ mcells y a)) /\
  succeeds (bind (swap_2 x y) (fun _ => swap_2 x y)) m (fun _ m' => same_memory m m').
Proof.
  intros. split.
  - apply C07_swap_matrix; concrete.
  - apply C07_swap_matrix_twice with (f := f) (g := g); concrete.
Qed.

(** * C08 *)
Theorem C08_scale_vector : forall (O : ops) (m : mem O) (alpha : O) (x : vec O) (f : nat -> O),
  vec_holds m x f -> vwritable x ->
  succeeds (scale_1 alpha x) m (fun _ m' =>
    vec_holds m' x (fun i => (f i * alpha)%sc) /\ changes_only m m' (vcells x)).
Proof. exact (@scale_1_ok). Qed.
Print Assumptions C08_scale_vector.

Theorem C08_scale_matrix : forall (O : ops) (m : mem O) (alpha : O) (x : mat O) (f : nat -> nat -> O),
  mat_holds m x f -> mwritable x ->
  succeeds (scale_2 alpha x) m (fun _ m' =>
    mat_holds m' x (fun i j => (f i j * alpha)%sc) /\ changes_only m m' (mcells x)).
Proof. exact (@scale_2_ok). Qed.
Print Assumptions C08_scale_matrix.

(** A 2x2 block with leading dimension 3, over the non-commutative ring of 2x2 integer matrices. *)
Example C08_case :
  let e (a b c d : Z) : m2 := ((a, b), (c, d)) in
  let m : mem m2ops := mem_of [e 1 2 3 4; e 0 1 0 0; e 9 9 9 9; e 0 0 1 0; e 5 6 7 8; e 9 9 9 9]%Z in
  let A := Mat 0 2 2 (LRightPad 3) ADefault in
  let alpha : m2ops := e 0%Z 1%Z 1%Z 0%Z in
  succeeds (scale_2 alpha A) m (fun _ m' =>
    mat_holds m' A (m2m [[e 2 1 4 3; e 1 0 0 0]; [e 0 0 0 1; e 6 5 8 7]]%Z) /\ changes_only m m' (mcells A)).
Proof.
  intros.
  assert (mat_holds m A (m2m [[e 1 2 3 4; e 0 1 0 0]; [e 0 0 1 0; e 5 6 7 8]]%Z)) as H by concrete.
  assert (mwritable A) as Hw by concrete.
  eapply wp_conseq; [exact (C08_scale_matrix _ m alpha A _ H Hw)|]. intros _ m' [H1 H2]. split; auto.
  eapply mat_holds_on_ext; [|exact H1]. intros i j Hi Hj _.
  destruct i as [|[|i]]; [| |simpl in Hi; lia]; (destruct j as [|[|j]]; [| |simpl in Hj; lia]); reflexivity.
Qed.

(** * C09 *)
Theorem C09_add_vector : forall (O : ops) (m : mem O) (x y z : vec O) (f g : nat -> O),
  vext x = vext z -> vext y = vext z -> vec_holds m x f -> vec_holds m y g ->
  vwritable z -> allocated m (vcells z) -> disjoint_or_aligned_v x z -> disjoint_or_aligned_v y z ->
  succeeds (add_1 x y z) m (fun _ m' =>
    vec_holds m' z (fun i => (f i + g i)%sc) /\ changes_only m m' (vcells z)).
Proof. exact (@add_1_ok). Qed.
Print Assumptions C09_add_vector.

Theorem C09_add_matrix : forall (O : ops) (m : mem O) (x y z : mat O) (f g : nat -> nat -> O),
  ext0 x = ext0 z -> ext1 x = ext1 z -> ext0 y = ext0 z -> ext1 y = ext1 z ->
  mat_holds m x f -> mat_holds m y g ->
  mwritable z -> allocated m (mcells z) -> disjoint_or_aligned_m x z -> disjoint_or_aligned_m y z ->
  succeeds (add_2 x y z) m (fun _ m' =>
    mat_holds m' z (fun i j => (f i j + g i j)%sc) /\ changes_only m m' (mcells z)).
Proof. exact (@add_2_ok). Qed.
Print Assumptions C09_add_matrix.

(** z := 10*z + z, an aliased call: axpy-like use with a scaled view. *)
Example C09_case :
  let m : mem zops := mem_of [1;2;3;50]%Z in
  let z := vec_at 0 3 in
  succeeds (add_1 (scaled_v (10%Z : zops) z) z z) m (fun _ m' =>
    vec_holds m' z (zv [11;22;33]%Z) /\ changes_only m m' (vcells z)).
Proof.
  intros. eapply wp_conseq;
  [apply C09_add_vector with (f := zv [10;20;30]%Z) (g := zv [1;2;3]%Z); try (right; intros ? ?; reflexivity); concrete|].
  intros _ m' [H1 H2]; split; auto. eapply vec_holds_ext; [|exact H1].
  intros i Hi. destruct i as [|[|[|i]]]; try reflexivity. simpl in Hi; lia.
Qed.
(** z := x + y with three distinct matrices in three layouts. *)
Example C09_case_matrix :
  let m : mem zops := mem_of [1;2;3;4; 10;20;30;40; 0;0;0;0; 5]%Z in
  let z := row_major 8 2 2 in
  succeeds (add_2 (row_major 0 2 2) (col_major 4 2 2) z) m (fun _ m' =>
    mat_holds m' z (fun i j => (zm [[1;2];[3;4]]%Z i j + zm [[10;30];[20;40]]%Z i j)%sc) /\ changes_only m m' (mcells z)).
Proof. intros. apply C09_add_matrix; concrete. Qed.

(** * C10 *)
(** [sum_from init 0 n t] is ((init + t 0) + t 1) + ... + t (n-1); no algebraic law is assumed. *)
Theorem C10_dot : forall (O : ops) (m : mem O) (x y : vec O) (f g : nat -> O) (init : O),
  vext x = vext y -> vec_holds m x f -> vec_holds m y g ->
  succeeds (dot x y init) m (fun r m' => r = sum_from init 0 (vext x) (fun k => (f k * g k)%sc) /\ m' = m).
Proof. exact (@dot_ok). Qed.
Print Assumptions C10_dot.

Theorem C10_dotc : forall (O : ops) (m : mem O) (fix_nc nc : bool) (x y : vec O) (f g : nat -> O) (init : O),
  (forall v : O, conj (conj v) = v) -> (nc = true -> forall v : O, conj v = v) ->
  vext x = vext y -> vec_holds m x f -> vec_holds m y g ->
  succeeds (dotc fix_nc nc x y init) m
    (fun r m' => r = sum_from init 0 (vext x) (fun k => (conj (f k) * g k)%sc) /\ m' = m).
Proof. exact (@dotc_ok). Qed.
Print Assumptions C10_dotc.

Theorem C10_no_init : forall (O : ops) (m : mem O) (fix_nc nc : bool) (x y : vec O) (f g : nat -> O),
  vext x = vext y -> vec_holds m x f -> vec_holds m y g ->
  succeeds (dot_noinit x y) m (fun r m' => r = sum_from zero 0 (vext x) (fun k => (f k * g k)%sc) /\ m' = m) /\
  ((forall v : O, conj (conj v) = v) -> (nc = true -> forall v : O, conj v = v) ->
   succeeds (dotc_noinit fix_nc nc x y) m
     (fun r m' => r = sum_from zero 0 (vext x) (fun k => (conj (f k) * g k)%sc) /\ m' = m)).
Proof.
  exact (fun O m fix_nc nc x y f g He Hx Hy =>
    Logic.conj (dot_ok zero He Hx Hy) (fun H1 H2 => dotc_ok fix_nc zero H1 H2 He Hx Hy)).
Qed.
Print Assumptions C10_no_init.

(** Where addition is associative, commutative and has a zero: init + sum of products. *)
Theorem C10_dot_init_plus : forall (O : ops) (m : mem O) (x y : vec O) (f g : nat -> O) (init : O),
  add_laws O -> vext x = vext y -> vec_holds m x f -> vec_holds m y g ->
  succeeds (dot x y init) m (fun r m' => r = (init + bigsum (vext x) (fun k => f k * g k))%sc /\ m' = m).
Proof. exact (@dot_init_plus). Qed.
Print Assumptions C10_dot_init_plus.

Example C10_case :
  let m : mem gops := mem_of [(1,2);(3,4); (5,6);(7,8)]%Z in
  succeeds (dot (vec_at 0 2) (vec_at 2 2) ((100,0)%Z : gops)) m
    (fun r m' => r = (82, 68)%Z /\ m' = m) /\
  succeeds (dotc false false (vec_at 0 2) (vec_at 2 2) ((100,0)%Z : gops)) m
    (fun r m' => r = (170, -8)%Z /\ m' = m).
Proof.
  intros. split.
  - eapply wp_conseq; [apply C10_dot with (f := gv [(1,2);(3,4)]%Z) (g := gv [(5,6);(7,8)]%Z); concrete|].
    intros r m' [-> ->]. split; reflexivity.
  - eapply wp_conseq; [apply C10_dotc with (f := gv [(1,2);(3,4)]%Z) (g := gv [(5,6);(7,8)]%Z); concrete; try (exact gcc); try discriminate|].
    intros r m' [-> ->]. split; reflexivity.
Qed.

(** * C12 *)
(** [ltb] is the comparison of the magnitude type; on the magnitudes that occur it must be a strict weak
    order (which "<" on floating-point numbers is unless one of them is NaN).  The last clause says that every earlier element is strictly smaller: k is the first
    index of the maximum. *)
Theorem C12_idx_abs_max : forall (O : ops) (M : Type) (mag : O -> M) (ltb : M -> M -> bool) (size_max : N)
    (m : mem O) (v : vec O) (f : nat -> O),
  (forall i, i < vext v -> ltb (mag (f i)) (mag (f i)) = false) ->
  (forall i j k, i < vext v -> j < vext v -> k < vext v ->
     ltb (mag (f i)) (mag (f j)) = true -> ltb (mag (f j)) (mag (f k)) = true -> ltb (mag (f i)) (mag (f k)) = true) ->
  (forall i j k, i < vext v -> j < vext v -> k < vext v ->
     ltb (mag (f i)) (mag (f k)) = true -> ltb (mag (f i)) (mag (f j)) = true \/ ltb (mag (f j)) (mag (f k)) = true) ->
  vec_holds m v f ->
  succeeds (vector_idx_abs_max mag ltb size_max v) m (fun r m' => m' = m /\
    ((vext v = 0 /\ r = size_max) \/
     exists k, r = N.of_nat k /\ k < vext v /\
       (forall i, i < vext v -> ltb (mag (f k)) (mag (f i)) = false) /\
       (forall i, i < k -> ltb (mag (f i)) (mag (f k)) = true))).
Proof. exact (@idx_abs_max_ok). Qed.
Print Assumptions C12_idx_abs_max.

(** Complex: magnitude |Re|+|Im|; the maximum 7 is reached at 1 and 2, the result is 1. *)
Example C12_case :
  let m : mem gops := mem_of [(1,2);(3,-4);(-7,0);(1,1)]%Z in
  let mag := fun v : gops => (Z.abs (fst v) + Z.abs (snd v))%Z in
  vector_idx_abs_max mag Z.ltb 255 (vec_at 0 0) = Ret 255%N /\
  run (vector_idx_abs_max mag Z.ltb 255 (vec_at 0 4)) m = Ok 1%N m /\
  (forall a, Z.ltb a a = false) /\
  (forall a b c, Z.ltb a b = true -> Z.ltb b c = true -> Z.ltb a c = true) /\
  (forall a b c, Z.ltb a c = true -> Z.ltb a b = true \/ Z.ltb b c = true) /\
  vec_holds m (vec_at 0 4) (gv [(1,2);(3,-4);(-7,0);(1,1)]%Z).
Proof.
  intros. split; [reflexivity|]. split; [reflexivity|].
  split; [intros; apply Z.ltb_irrefl|]. split; [intros a b c; rewrite !Z.ltb_lt; lia|].
  split; [intros a b c; rewrite !Z.ltb_lt; lia|]. concrete.
Qed.

(** * C20 *)
Theorem C20_apply_givens_real : forall (O : ops) (m : mem O) (x y : vec O) (f g : nat -> O) (c s : O),
  vext x = vext y -> vec_holds m x f -> vec_holds m y g -> vwritable x -> vwritable y ->
  disjoint (vcells x) (vcells y) ->
  succeeds (apply_givens_rotation x y c s) m (fun _ m' =>
    vec_holds m' x (fun i => (c * f i + s * g i)%sc) /\
    vec_holds m' y (fun i => (c * g i - s * f i)%sc) /\
    changes_only m m' (fun a => vcells x a \/ vcells y a)).
Proof. exact (@apply_givens_ok). Qed.
Print Assumptions C20_apply_givens_real.

Theorem C20_apply_givens_complex : forall (O : ops) (m : mem O) (x y : vec O) (f g : nat -> O) (c s : O),
  vext x = vext y -> vec_holds m x f -> vec_holds m y g -> vwritable x -> vwritable y ->
  disjoint (vcells x) (vcells y) ->
  succeeds (apply_givens_rotation_c x y c s) m (fun _ m' =>
    vec_holds m' x (fun i => (c * f i + s * g i)%sc) /\
    vec_holds m' y (fun i => (c * g i - conj s * f i)%sc) /\
    changes_only m m' (fun a => vcells x a \/ vcells y a)).
Proof. exact (@apply_givens_c_ok). Qed.
Print Assumptions C20_apply_givens_complex.

(** The sum of squared moduli of the two vectors is preserved (v * conj v is |v|^2). *)
Theorem C20_norm_preserved_real : forall (O : ops) (m : mem O) (x y : vec O) (f g : nat -> O) (c s : O),
  ring_laws O -> mul_commutes O -> (c * c + s * s = one)%sc ->
  vext x = vext y -> vec_holds m x f -> vec_holds m y g -> vwritable x -> vwritable y ->
  disjoint (vcells x) (vcells y) ->
  succeeds (apply_givens_rotation x y c s) m (fun _ m' =>
    exists f' g', vec_holds m' x f' /\ vec_holds m' y g' /\
      bigsum (vext x) (fun i => f' i * f' i + g' i * g' i)%sc =
      bigsum (vext x) (fun i => f i * f i + g i * g i)%sc).
Proof. exact (@rot_norm_run). Qed.
Print Assumptions C20_norm_preserved_real.

Theorem C20_norm_preserved_complex : forall (O : ops) (m : mem O) (x y : vec O) (f g : nat -> O) (c s : O),
  ring_laws O -> mul_commutes O -> conj_laws O -> conj c = c -> (c * c + s * conj s = one)%sc ->
  vext x = vext y -> vec_holds m x f -> vec_holds m y g -> vwritable x -> vwritable y ->
  disjoint (vcells x) (vcells y) ->
  succeeds (apply_givens_rotation_c x y c s) m (fun _ m' =>
    exists f' g', vec_holds m' x f' /\ vec_holds m' y g' /\
      bigsum (vext x) (fun i => f' i * conj (f' i) + g' i * conj (g' i))%sc =
      bigsum (vext x) (fun i => f i * conj (f i) + g i * conj (g i))%sc).
Proof. exact (@rot_norm_run_c). Qed.
Print Assumptions C20_norm_preserved_complex.

(** Rotating by (c, s) and then by (c, -s) restores the whole memory. *)
Theorem C20_inverse_real : forall (O : ops), ring_laws O -> mul_commutes O ->
  forall (m : mem O) (x y : vec O) (f g : nat -> O) (c s : O),
  (c * c + s * s = one)%sc ->
  vext x = vext y -> vec_holds m x f -> vec_holds m y g -> vwritable x -> vwritable y ->
  disjoint (vcells x) (vcells y) ->
  succeeds (bind (apply_givens_rotation x y c s) (fun _ => apply_givens_rotation x y c (zero - s)%sc)) m
    (fun _ m' => same_memory m m').
Proof. exact (@rot_inverse). Qed.
Print Assumptions C20_inverse_real.

Theorem C20_inverse_complex : forall (O : ops), ring_laws O -> mul_commutes O -> conj_laws O ->
  forall (m : mem O) (x y : vec O) (f g : nat -> O) (c s : O),
  (c * c + s * conj s = one)%sc ->
  vext x = vext y -> vec_holds m x f -> vec_holds m y g -> vwritable x -> vwritable y ->
  disjoint (vcells x) (vcells y) ->
  succeeds (bind (apply_givens_rotation_c x y c s) (fun _ => apply_givens_rotation_c x y c (zero - s)%sc)) m
    (fun _ m' => same_memory m m').
Proof. exact (@rot_inverse_c). Qed.
Print Assumptions C20_inverse_complex.

(** c = 0, s = i (a complex rotation with c^2+|s|^2 = 1): x' = i*y, y' = i*x. *)
Example C20_case :
  let m : mem gops := mem_of [(1,2);(3,4); (5,6);(7,8); (0,0)]%Z in
  let x := vec_at 0 2 in let y := vec_at 2 2 in
  let c : gops := (0,0)%Z in let s : gops := (0,1)%Z in
  (conj c = c /\ c * c + s * conj s = one)%sc /\
  succeeds (apply_givens_rotation_c x y c s) m (fun _ m' =>
    m' 0 = Some (-6,5)%Z /\ m' 1 = Some (-8,7)%Z /\ m' 2 = Some (-2,1)%Z /\ m' 3 = Some (-4,3)%Z /\ m' 4 = Some (0,0)%Z) /\
  succeeds (bind (apply_givens_rotation_c x y c s) (fun _ => apply_givens_rotation_c x y c (zero - s)%sc)) m
    (fun _ m' => same_memory m m').
Proof.
  intros. split; [split; reflexivity|]. split.
  - eexists _, _. split; [reflexivity|]. repeat split.
  - apply C20_inverse_complex with (f := gv [(1,2);(3,4)]%Z) (g := gv [(5,6);(7,8)]%Z);
    first [apply gring | apply gconj | apply gcomm | concrete].
Qed.
(** Real: (3/5, 4/5) over the rationals. *)
Example C20_case_real :
  let m : mem qops := mem_of [Q2Qc 1; Q2Qc 2; Q2Qc 3; Q2Qc 4]%Q in
  let x := vec_at 0 2 in let y := vec_at 2 2 in
  let c : qops := Q2Qc (3#5) in let s : qops := Q2Qc (4#5) in
  (c * c + s * s = one)%sc /\
  succeeds (bind (apply_givens_rotation x y c s) (fun _ => apply_givens_rotation x y c (zero - s)%sc)) m
    (fun _ m' => same_memory m m').
Proof.
  intros. assert (c * c + s * s = one)%sc as H by (apply Qcanon.Qc_is_canon; reflexivity).
  split; [exact H|].
  apply C20_inverse_real with (f := qv [Q2Qc 1; Q2Qc 2]%Q) (g := qv [Q2Qc 3; Q2Qc 4]%Q); concrete.
  - apply qring.
  - apply qcomm.
  - exact H.
Qed.

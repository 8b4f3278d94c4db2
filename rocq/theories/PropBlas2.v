(** Properties C21-C31: BLAS-2 algorithms. *)
From Coq Require Import List Arith ZArith Lia Bool QArith Qcanon.
From Verif Require Import Mem Scalar View Spec Idx Wp Sums Alg Blas1 Blas2 PfBlas1 PfBlas2 PfTrmv PfTrsv PfRank PfBlas2b Inst.
Import ListNotations.
Local Open Scope nat_scope.
Local Open Scope sc_scope.

(** * C21 *)
(** Row i of the result is ((0 + a_i0 x_0) + a_i1 x_1) + ...; no law of the element type is used. *)
Theorem C21_gemv : forall (O : ops) (m : mem O) A x y a f,
  vext x = ext1 A -> vext y = ext0 A ->
  mat_holds m A a -> vec_holds m x f -> vwritable y -> allocated m (vcells y) ->
  disjoint (mcells A) (vcells y) -> disjoint (vcells x) (vcells y) ->
  succeeds (matrix_vector_product A x y) m (fun _ m' =>
    vec_holds m' y (fun i => bigsum (ext1 A) (fun j => a i j * f j)) /\ changes_only m m' (vcells y)).
Proof. exact (@gemv_ok). Qed.
Print Assumptions C21_gemv.

(** A is the conjugate transpose view of a 2x3 matrix; the scalar type is non-real. *)
Example C21_case :
  let m : mem gops := mem_of [(1,1);(2,0);(0,3); (4,0);(5,0);(0,-6); (1,0);(0,1); (7,7);(7,7);(7,7); (8,8)]%Z in
  let A := Mat 0 3 2 LLeft (AConj ADefault) in
  conjugate_transposed false false false (row_major 0 2 3) = Some A /\
  succeeds (matrix_vector_product A (vec_at 6 2) (vec_at 8 3)) m (fun _ m' =>
    vec_holds m' (vec_at 8 3) (gv [(1,3);(2,5);(-6,-3)]%Z) /\ changes_only m m' (vcells (@vec_at gops 8 3))).
Proof.
  intros. split; [reflexivity|]. eapply wp_conseq.
  - apply C21_gemv with (a := gm [[(1,-1);(4,0)];[(2,0);(5,0)];[(0,-3);(0,6)]]%Z) (f := gv [(1,0);(0,1)]%Z); concrete.
  - intros _ m' [H1 H2]; split; auto. eapply vec_holds_ext; [|exact H1].
    intros i Hi. destruct i as [|[|[|i]]]; try reflexivity. simpl in Hi; lia.
Qed.

(** * C22 *)
(** z may be the very same view as y ([disjoint_or_aligned_v]). *)
Theorem C22_gemv_updating : forall (O : ops) (m : mem O) A x y z a f g,
  vext x = ext1 A -> vext y = ext0 A -> vext z = ext0 A ->
  mat_holds m A a -> vec_holds m x f -> vec_holds m y g -> vwritable z -> allocated m (vcells z) ->
  disjoint (mcells A) (vcells z) -> disjoint (vcells x) (vcells z) -> disjoint_or_aligned_v y z ->
  succeeds (matrix_vector_product_upd A x y z) m (fun _ m' =>
    vec_holds m' z (fun i => sum_from (g i) 0 (ext1 A) (fun j => a i j * f j)) /\ changes_only m m' (vcells z)).
Proof. exact (@gemv_upd_ok). Qed.
Print Assumptions C22_gemv_updating.

Example C22_case :
  let m : mem zops := mem_of [1;2;3; 4;5;6; 1;10;100; 7;8]%Z in
  let A := row_major 0 2 3 in let x := vec_at 6 3 in let y := vec_at 9 2 in
  succeeds (matrix_vector_product_upd A x y y) m (fun _ m' =>
    vec_holds m' y (zv [328;662]%Z) /\ changes_only m m' (vcells y)).
Proof.
  intros. eapply wp_conseq.
  - apply C22_gemv_updating with (a := zm [[1;2;3];[4;5;6]]%Z) (f := zv [1;10;100]%Z) (g := zv [7;8]%Z); concrete.
  - intros _ m' [H1 H2]; split; auto. eapply vec_holds_ext; [|exact H1].
    intros i Hi. destruct i as [|[|i]]; try reflexivity. simpl in Hi; lia.
Qed.

(** * C23 *)
(** Only the triangle needs to exist in memory: [mat_holds_on m A (in_tri t) a] says nothing about
    the other elements, whose cells may be unallocated. *)
Theorem C23_symv : forall (O : ops) (m : mem O) A t x y a f,
  ext0 A = ext1 A -> vext x = ext1 A -> vext y = ext0 A ->
  mat_holds_on m A (in_tri t) a -> vec_holds m x f -> vwritable y -> allocated m (vcells y) ->
  disjoint (mcells_on A (in_tri t)) (vcells y) -> disjoint (vcells x) (vcells y) ->
  succeeds (symmetric_matrix_vector_product A t x y) m (fun _ m' =>
    vec_holds m' y (fun i => bigsum (ext1 A) (fun j => sym_of t a i j * f j)) /\ changes_only m m' (vcells y)).
Proof. exact (@symv_ok). Qed.
Print Assumptions C23_symv.

Theorem C23_symv_updating : forall (O : ops) (m : mem O) A t x y z a f g,
  ext0 A = ext1 A -> vext x = ext1 A -> vext y = ext0 A -> vext z = ext0 A ->
  mat_holds_on m A (in_tri t) a -> vec_holds m x f -> vec_holds m y g -> vwritable z -> allocated m (vcells z) ->
  disjoint (mcells_on A (in_tri t)) (vcells z) -> disjoint (vcells x) (vcells z) -> disjoint_or_aligned_v y z ->
  succeeds (symmetric_matrix_vector_product_upd A t x y z) m (fun _ m' =>
    vec_holds m' z (fun i => sum_from (g i) 0 (ext1 A) (fun j => sym_of t a i j * f j)) /\ changes_only m m' (vcells z)).
Proof. exact (@symv_upd_ok). Qed.
Print Assumptions C23_symv_updating.

(** 2x2, lower triangle; the element (0,1) is an unallocated cell (the matrix starts at address 3, row
    major with a stride of 10, so (0,1) is cell 4). *)
Definition hole {T} (l : list T) (b : nat) : mem T := fun a => if a =? b then None else mem_of l a.
Example C23_case :
  let m : mem zops := hole [10;20; 0; 1;0; 2;3; 0;0;0]%Z 4 in
  let A := Mat 3 2 2 LRight ADefault in let x := vec_at 0 2 in let y := vec_at 7 2 in
  m 4 = None /\
  succeeds (symmetric_matrix_vector_product A Lower x y) m (fun _ m' =>
    vec_holds m' y (zv [50;80]%Z) /\ changes_only m m' (vcells y)).
Proof.
  intros. split; [reflexivity|]. eapply wp_conseq.
  - apply C23_symv with (a := zm [[1;0];[2;3]]%Z) (f := zv [10;20]%Z); concrete.
  - intros _ m' [H1 H2]; split; auto. eapply vec_holds_ext; [|exact H1].
    intros i Hi. destruct i as [|[|i]]; try reflexivity. simpl in Hi; lia.
Qed.

(** * C24 *)
Theorem C24_hemv : forall (O : ops) (m : mem O) A t x y a f,
  ext0 A = ext1 A -> vext x = ext1 A -> vext y = ext0 A ->
  mat_holds_on m A (in_tri t) a -> vec_holds m x f -> vwritable y -> allocated m (vcells y) ->
  disjoint (mcells_on A (in_tri t)) (vcells y) -> disjoint (vcells x) (vcells y) ->
  succeeds (hermitian_matrix_vector_product A t x y) m (fun _ m' =>
    vec_holds m' y (fun i => bigsum (ext1 A) (fun j => herm_of t a i j * f j)) /\ changes_only m m' (vcells y)).
Proof. exact (@hemv_ok). Qed.
Print Assumptions C24_hemv.

Theorem C24_hemv_updating : forall (O : ops) (m : mem O) A t x y z a f g,
  ext0 A = ext1 A -> vext x = ext1 A -> vext y = ext0 A -> vext z = ext0 A ->
  mat_holds_on m A (in_tri t) a -> vec_holds m x f -> vec_holds m y g -> vwritable z -> allocated m (vcells z) ->
  disjoint (mcells_on A (in_tri t)) (vcells z) -> disjoint (vcells x) (vcells z) -> disjoint_or_aligned_v y z ->
  succeeds (hermitian_matrix_vector_product_upd A t x y z) m (fun _ m' =>
    vec_holds m' z (fun i => sum_from (g i) 0 (ext1 A) (fun j => herm_of t a i j * f j)) /\ changes_only m m' (vcells z)).
Proof. exact (@hemv_upd_ok). Qed.
Print Assumptions C24_hemv_updating.

(** The imaginary parts 50 and 60 stored on the diagonal have no effect. *)
Example C24_case :
  let m : mem gops := mem_of [(1,50);(2,3);(0,0);(4,60); (1,0);(0,1); (0,0);(0,0)]%Z in
  let A := row_major 0 2 2 in let x := vec_at 4 2 in let y := vec_at 6 2 in
  succeeds (hermitian_matrix_vector_product A Upper x y) m (fun _ m' =>
    vec_holds m' y (gv [(-2,2);(2,1)]%Z) /\ changes_only m m' (vcells y)).
Proof.
  intros. eapply wp_conseq.
  - apply C24_hemv with (a := gm [[(1,50);(2,3)];[(0,0);(4,60)]]%Z) (f := gv [(1,0);(0,1)]%Z); concrete.
  - intros _ m' [H1 H2]; split; auto. eapply vec_holds_ext; [|exact H1].
    intros i Hi. destruct i as [|[|i]]; try reflexivity. simpl in Hi; lia.
Qed.

(** * C25 *)
(** Law-free: the exact order of operations ([tri_row]); the elements outside the triangle, and the
    diagonal for an implicit unit diagonal, need not exist in memory. *)
Theorem C25_trmv_exact : forall (O : ops) (m : mem O) A t d x y a f,
  ext0 A = ext1 A -> vext x = ext1 A -> vext y = ext0 A ->
  mat_holds_on m A (stored t d) a -> vec_holds m x f -> vwritable y -> allocated m (vcells y) ->
  disjoint (mcells_on A (stored t d)) (vcells y) -> disjoint (vcells x) (vcells y) ->
  succeeds (triangular_matrix_vector_product A t d x y) m (fun _ m' =>
    vec_holds m' y (tri_row zero t d (ext1 A) a f) /\ changes_only m m' (vcells y)).
Proof. exact (@trmv_ok). Qed.
Print Assumptions C25_trmv_exact.

Theorem C25_trmv_updating_exact : forall (O : ops) (m : mem O) A t d x y z a f g,
  ext0 A = ext1 A -> vext x = ext1 A -> vext y = ext0 A -> vext z = ext0 A ->
  mat_holds_on m A (stored t d) a -> vec_holds m x f -> vec_holds m y g -> vwritable z -> allocated m (vcells z) ->
  disjoint (mcells_on A (stored t d)) (vcells z) -> disjoint (vcells x) (vcells z) -> disjoint_or_aligned_v y z ->
  succeeds (triangular_matrix_vector_product_upd A t d x y z) m (fun _ m' =>
    vec_holds m' z (fun i => tri_row (g i) t d (ext1 A) a f i) /\ changes_only m m' (vcells z)).
Proof. exact (@trmv_upd_ok). Qed.
Print Assumptions C25_trmv_updating_exact.

(** In a ring: T x for the full triangular matrix T. *)
Theorem C25_trmv : forall (O : ops) (m : mem O) A t d x y a f,
  ring_laws O ->
  ext0 A = ext1 A -> vext x = ext1 A -> vext y = ext0 A ->
  mat_holds_on m A (stored t d) a -> vec_holds m x f -> vwritable y -> allocated m (vcells y) ->
  disjoint (mcells_on A (stored t d)) (vcells y) -> disjoint (vcells x) (vcells y) ->
  succeeds (triangular_matrix_vector_product A t d x y) m (fun _ m' =>
    vec_holds m' y (fun i => bigsum (ext1 A) (fun j => tri_of t d a i j * f j)) /\ changes_only m m' (vcells y)).
Proof. exact (@trmv_ring_ok). Qed.
Print Assumptions C25_trmv.

Theorem C25_trmv_updating : forall (O : ops) (m : mem O) A t d x y z a f g,
  ring_laws O ->
  ext0 A = ext1 A -> vext x = ext1 A -> vext y = ext0 A -> vext z = ext0 A ->
  mat_holds_on m A (stored t d) a -> vec_holds m x f -> vec_holds m y g -> vwritable z -> allocated m (vcells z) ->
  disjoint (mcells_on A (stored t d)) (vcells z) -> disjoint (vcells x) (vcells z) -> disjoint_or_aligned_v y z ->
  succeeds (triangular_matrix_vector_product_upd A t d x y z) m (fun _ m' =>
    vec_holds m' z (fun i => g i + bigsum (ext1 A) (fun j => tri_of t d a i j * f j)) /\ changes_only m m' (vcells z)).
Proof. exact (@trmv_upd_ring_ok). Qed.
Print Assumptions C25_trmv_updating.

(** The in-place form multiplies y(j)*A(j,j), so it needs a commutative product. *)
Theorem C25_trmv_inplace : forall (O : ops) (m : mem O) A t d y a f,
  ring_laws O -> mul_commutes O ->
  ext0 A = ext1 A -> vext y = ext0 A ->
  mat_holds_on m A (stored t d) a -> vec_holds m y f -> vwritable y ->
  disjoint (mcells_on A (stored t d)) (vcells y) ->
  succeeds (triangular_matrix_vector_product_inplace A t d y) m (fun _ m' =>
    vec_holds m' y (fun i => bigsum (ext1 A) (fun j => tri_of t d a i j * f j)) /\ changes_only m m' (vcells y)).
Proof. exact (@trmv_inplace_ok). Qed.
Print Assumptions C25_trmv_inplace.

(** Overwriting product = copy followed by the in-place product, as memories. *)
Theorem C25_forms_agree : forall (O : ops) (m : mem O) A t d x y a f,
  ring_laws O -> mul_commutes O ->
  ext0 A = ext1 A -> vext x = ext1 A -> vext y = ext0 A ->
  mat_holds_on m A (stored t d) a -> vec_holds m x f -> vwritable y -> allocated m (vcells y) ->
  disjoint (mcells_on A (stored t d)) (vcells y) -> disjoint (vcells x) (vcells y) ->
  exists m1 m2,
    run (triangular_matrix_vector_product A t d x y) m = Ok tt m1 /\
    run (bind (copy_1 x y) (fun _ => triangular_matrix_vector_product_inplace A t d y)) m = Ok tt m2 /\
    same_memory m1 m2.
Proof. exact (@trmv_forms_agree). Qed.
Print Assumptions C25_forms_agree.

Example C25_case :
  let m : mem zops := hole [10;20; 0; 1;0; 2;3; 0;0;0]%Z 4 in
  let A := Mat 3 2 2 LRight ADefault in let x := vec_at 0 2 in let y := vec_at 7 2 in
  succeeds (triangular_matrix_vector_product A Lower Explicit x y) m (fun _ m' =>
    vec_holds m' y (zv [10;80]%Z) /\ changes_only m m' (vcells y)) /\
  succeeds (triangular_matrix_vector_product_inplace A Lower ImplicitUnit x) m (fun _ m' =>
    vec_holds m' x (zv [10;40]%Z) /\ changes_only m m' (vcells x)).
Proof.
  intros. split; eapply wp_conseq.
  - apply C25_trmv with (a := zm [[1;0];[2;3]]%Z) (f := zv [10;20]%Z); first [apply zring | concrete].
  - intros _ m' [H1 H2]; split; auto. eapply vec_holds_ext; [|exact H1].
    intros i Hi. destruct i as [|[|i]]; try reflexivity. simpl in Hi; lia.
  - apply C25_trmv_inplace with (a := zm [[1;0];[2;3]]%Z) (f := zv [10;20]%Z); first [apply zring | apply zcomm | concrete].
  - intros _ m' [H1 H2]; split; auto. eapply vec_holds_ext; [|exact H1].
    intros i Hi. destruct i as [|[|i]]; try reflexivity. simpl in Hi; lia.
Qed.

(** * C26 *)
(** [divide] is the caller's division operator; B and X may be the same view; [ty] is the mdspan size
    type.  The excluded case is C28's refutation. *)
Theorem C26_trsv_divide : forall (O : ops) ty (m : mem O) divide A t d B X a b,
  ring_laws O ->
  fits ty (ext0 A) -> (ext0 A = 0 -> t = Upper -> ty <> U32) ->
  ext0 A = ext1 A -> vext B = ext0 A -> vext X = ext0 A ->
  mat_holds_on m A (stored t d) a -> vec_holds m B b -> vwritable X -> allocated m (vcells X) ->
  disjoint (mcells_on A (stored t d)) (vcells X) -> disjoint_or_aligned_v B X ->
  div_ok divide d (ext0 A) a ->
  succeeds (triangular_matrix_vector_solve_with ty divide A t d B X) m (fun _ m' =>
    (exists f, vec_holds m' X f /\
      forall i, i < ext0 A -> bigsum (ext0 A) (fun j => tri_of t d a i j * f j) = b i)
    /\ changes_only m m' (vcells X)).
Proof. exact (@trsv_ok). Qed.
Print Assumptions C26_trsv_divide.

Theorem C26_trsv : forall (O : ops) ty (m : mem O) A t d B X a b,
  ring_laws O -> div_laws O ->
  fits ty (ext0 A) -> (ext0 A = 0 -> t = Upper -> ty <> U32) ->
  ext0 A = ext1 A -> vext B = ext0 A -> vext X = ext0 A ->
  mat_holds_on m A (stored t d) a -> vec_holds m B b -> vwritable X -> allocated m (vcells X) ->
  disjoint (mcells_on A (stored t d)) (vcells X) -> disjoint_or_aligned_v B X ->
  (d = Explicit -> forall i, i < ext0 A -> a i i <> zero) ->
  succeeds (triangular_matrix_vector_solve ty A t d B X) m (fun _ m' =>
    (exists f, vec_holds m' X f /\
      forall i, i < ext0 A -> bigsum (ext0 A) (fun j => tri_of t d a i j * f j) = b i)
    /\ changes_only m m' (vcells X)).
Proof.
  exact (fun O ty m A t d B X a b L D Hf Hz Hsq HB HX HA Hb Hw Hal Hd Hda Hnz =>
    trsv_ok L Hf Hz Hsq HB HX HA Hb Hw Hal Hd Hda (div_ok_nonzero D a Hnz)).
Qed.
Print Assumptions C26_trsv.

(** Upper triangular solve in place over the rationals: [[2,3],[.,4]] x = (1,2): x = (-1/4, 1/2). *)
Example C26_case :
  let q (a : Z) : qops := Q2Qc (inject_Z a) in
  let m : mem qops := hole [q 2; q 3; q 0; q 4; q 1; q 2]%Z 2 in
  let A := row_major 0 2 2 in let x := vec_at 4 2 in
  succeeds (triangular_matrix_vector_solve U64 A Upper Explicit x x) m (fun _ m' =>
    (exists f, vec_holds m' x f /\
      forall i, i < ext0 A -> bigsum (ext0 A) (fun j => tri_of Upper Explicit (melt [[q 2; q 3]; [q 0; q 4]]%Z) i j * f j)
        = velt [q 1; q 2]%Z i)
    /\ changes_only m m' (vcells x)).
Proof.
  intros. apply C26_trsv; first [apply qring | apply qdiv | concrete].
  - unfold fits; split; vm_compute; congruence.
  - discriminate.
  - intros _ i Hi. destruct i as [|[|i]]; [| |simpl in Hi; lia]; intros E; apply (f_equal this) in E; discriminate E.
Qed.

(** * C27 *)
Theorem C27_solve_after_multiply : forall (O : ops) ty (m : mem O) A t d y a f,
  ring_laws O -> mul_commutes O -> div_laws O ->
  fits ty (ext0 A) -> (ext0 A = 0 -> t = Upper -> ty <> U32) ->
  ext0 A = ext1 A -> vext y = ext0 A ->
  mat_holds_on m A (stored t d) a -> vec_holds m y f -> vwritable y ->
  disjoint (mcells_on A (stored t d)) (vcells y) ->
  (d = Explicit -> forall i, i < ext0 A -> a i i <> zero) ->
  succeeds (bind (triangular_matrix_vector_product_inplace A t d y)
              (fun _ => triangular_matrix_vector_solve ty A t d y y)) m (fun _ m' => same_memory m m').
Proof. exact (@trsv_after_trmv). Qed.
Print Assumptions C27_solve_after_multiply.

Theorem C27_multiply_after_solve : forall (O : ops) ty (m : mem O) A t d y a f,
  ring_laws O -> mul_commutes O -> div_laws O ->
  fits ty (ext0 A) -> (ext0 A = 0 -> t = Upper -> ty <> U32) ->
  ext0 A = ext1 A -> vext y = ext0 A ->
  mat_holds_on m A (stored t d) a -> vec_holds m y f -> vwritable y ->
  disjoint (mcells_on A (stored t d)) (vcells y) ->
  (d = Explicit -> forall i, i < ext0 A -> a i i <> zero) ->
  succeeds (bind (triangular_matrix_vector_solve ty A t d y y)
              (fun _ => triangular_matrix_vector_product_inplace A t d y)) m (fun _ m' => same_memory m m').
Proof. exact (@trmv_after_trsv). Qed.
Print Assumptions C27_multiply_after_solve.

Example C27_case :
  let q (a : Z) : qops := Q2Qc (inject_Z a) in
  let m : mem qops := hole [q 2; q 3; q 0; q 4; q 1; q 2]%Z 2 in
  let A := row_major 0 2 2 in let y := vec_at 4 2 in
  succeeds (bind (triangular_matrix_vector_product_inplace A Upper Explicit y)
              (fun _ => triangular_matrix_vector_solve I32 A Upper Explicit y y)) m (fun _ m' => same_memory m m').
Proof.
  intros. apply C27_solve_after_multiply with (a := melt [[q 2; q 3]; [q 0; q 4]]%Z) (f := velt [q 1; q 2]%Z);
  first [apply qring | apply qdiv | apply qcomm | concrete].
  - unfold fits; split; vm_compute; congruence.
  - discriminate.
  - intros _ i Hi. destruct i as [|[|i]]; [| |simpl in Hi; lia]; intros E; apply (f_equal this) in E; discriminate E.
Qed.

(** * C28 *)
(** The full statement would be: for every [ty], every triangle and every 0x0 matrix the run ends in [Ok]
    with unchanged memory.  It holds except for the upper triangle with a 32-bit unsigned size type. *)
Theorem C28_empty_solve_partial : forall (O : ops) ty divide (m : mem O) A t d B X,
  ext0 A = 0 -> (t = Upper -> ty <> U32) ->
  run (triangular_matrix_vector_solve_with ty divide A t d B X) m = Ok tt m.
Proof. exact (@trsv_empty_ok). Qed.
Print Assumptions C28_empty_solve_partial.

(** With a 32-bit unsigned size type, A_num_rows - 1 wraps to 2^32-1, which a 64-bit ptrdiff_t represents:
    the loop starts there and reads B out of range. *)
Theorem C28_empty_solve_refuted : exists (ty : ity) (A : mat zops) (t : triangle) (d : diagonal) (b x : vec zops) (m : mem zops),
  ext0 A = 0 /\ ext1 A = 0 /\ vext b = 0 /\ vext x = 0 /\ fits ty (ext0 A) /\
  run (triangular_matrix_vector_solve ty A t d b x) m = Err OutOfBounds m.
Proof.
  exists U32, (row_major 0 0 0), Upper, Explicit, (vec_at 0 0), (vec_at 0 0), (mem_of [1;2;3]%Z).
  repeat (split; [try reflexivity|]); [vm_compute; congruence | vm_compute; congruence |].
  exact (@trsv_empty_u32 zops Z.div (mem_of [1;2;3]%Z) (row_major 0 0 0) Explicit (vec_at 0 0) (vec_at 0 0) eq_refl eq_refl).
Qed.
Print Assumptions C28_empty_solve_refuted.
(** Every such call fails, whatever the division operator and the memory. *)
Theorem C28_empty_solve_u32_always_fails : forall (O : ops) divide (m : mem O) A d B X,
  ext0 A = 0 -> vext B = 0 ->
  run (triangular_matrix_vector_solve_with U32 divide A Upper d B X) m = Err OutOfBounds m.
Proof. exact (@trsv_empty_u32). Qed.
Print Assumptions C28_empty_solve_u32_always_fails.

Example C28_case : forall m : mem qops,
  run (triangular_matrix_vector_solve U64 (row_major 0 0 0) Upper Explicit (vec_at 0 0) (vec_at 0 0)) m = Ok tt m.
Proof. intros. apply C28_empty_solve_partial; [reflexivity|discriminate]. Qed.

(** * C29 *)
Theorem C29_ger : forall (O : ops) (m : mem O) x y A a f g,
  vext x = ext0 A -> vext y = ext1 A ->
  mat_holds m A a -> vec_holds m x f -> vec_holds m y g -> mwritable A ->
  disjoint (vcells x) (mcells A) -> disjoint (vcells y) (mcells A) ->
  succeeds (matrix_rank_1_update x y A) m (fun _ m' =>
    mat_holds m' A (fun i j => a i j + f i * g j) /\ changes_only m m' (mcells A)).
Proof. exact (@ger_ok). Qed.
Print Assumptions C29_ger.

Theorem C29_gerc : forall (O : ops) (m : mem O) fix_nc nc x y A a f g,
  (forall v : O, conj (conj v) = v) -> (nc = true -> forall v : O, conj v = v) ->
  vext x = ext0 A -> vext y = ext1 A ->
  mat_holds m A a -> vec_holds m x f -> vec_holds m y g -> mwritable A ->
  disjoint (vcells x) (mcells A) -> disjoint (vcells y) (mcells A) ->
  succeeds (matrix_rank_1_update_c fix_nc nc x y A) m (fun _ m' =>
    mat_holds m' A (fun i j => a i j + f i * conj (g j)) /\ changes_only m m' (mcells A)).
Proof. exact (@gerc_ok). Qed.
Print Assumptions C29_gerc.

Example C29_case :
  let m : mem gops := mem_of [(1,0);(0,1); (1,1);(2,2);(3,3); (0,0);(0,0);(0,0);(0,0);(0,0);(9,0)]%Z in
  let x := vec_at 0 2 in let y := vec_at 2 3 in let A := col_major 5 2 3 in
  succeeds (matrix_rank_1_update_c false false x y A) m (fun _ m' =>
    mat_holds m' A (gm [[(1,-1);(2,-2);(3,-3)];[(1,1);(2,2);(12,3)]]%Z) /\ changes_only m m' (mcells A)).
Proof.
  intros. eapply wp_conseq.
  - apply C29_gerc with (a := gm [[(0,0);(0,0);(0,0)];[(0,0);(0,0);(9,0)]]%Z) (f := gv [(1,0);(0,1)]%Z)
      (g := gv [(1,1);(2,2);(3,3)]%Z); try exact gcc; try discriminate; concrete.
  - intros _ m' [H1 H2]; split; auto. eapply mat_holds_on_ext; [|exact H1].
    intros i j Hi Hj _. destruct i as [|[|i]]; [| |simpl in Hi; lia]; (destruct j as [|[|[|j]]]; [| | |simpl in Hj; lia]); reflexivity.
Qed.

(** * C30 *)
(** Only the triangle is assumed to exist; [changes_only] says the other elements of A are untouched. *)
Theorem C30_syr_alpha : forall (O : ops) (m : mem O) alpha x A t a f,
  ext0 A = ext1 A -> vext x = ext0 A ->
  mat_holds_on m A (in_tri t) a -> vec_holds m x f -> mwritable_on A (in_tri t) ->
  disjoint (vcells x) (mcells_on A (in_tri t)) ->
  succeeds (symmetric_matrix_rank_1_update_alpha alpha x A t) m (fun _ m' =>
    mat_holds_on m' A (in_tri t) (fun i j => a i j + alpha * f i * f j) /\
    changes_only m m' (mcells_on A (in_tri t))).
Proof. exact (@syr_alpha_ok). Qed.
Print Assumptions C30_syr_alpha.

Theorem C30_syr : forall (O : ops) (m : mem O) x A t a f,
  ext0 A = ext1 A -> vext x = ext0 A ->
  mat_holds_on m A (in_tri t) a -> vec_holds m x f -> mwritable_on A (in_tri t) ->
  disjoint (vcells x) (mcells_on A (in_tri t)) ->
  succeeds (symmetric_matrix_rank_1_update x A t) m (fun _ m' =>
    mat_holds_on m' A (in_tri t) (fun i j => a i j + f i * f j) /\
    changes_only m m' (mcells_on A (in_tri t))).
Proof. exact (@syr_ok). Qed.
Print Assumptions C30_syr.

Theorem C30_syr2 : forall (O : ops) (m : mem O) x y A t a f g,
  ext0 A = ext1 A -> vext x = ext0 A -> vext y = ext0 A ->
  mat_holds_on m A (in_tri t) a -> vec_holds m x f -> vec_holds m y g -> mwritable_on A (in_tri t) ->
  disjoint (vcells x) (mcells_on A (in_tri t)) -> disjoint (vcells y) (mcells_on A (in_tri t)) ->
  succeeds (symmetric_matrix_rank_2_update x y A t) m (fun _ m' =>
    mat_holds_on m' A (in_tri t) (fun i j => a i j + (f i * g j + g i * f j)) /\
    changes_only m m' (mcells_on A (in_tri t))).
Proof. exact (@syr2_ok). Qed.
Print Assumptions C30_syr2.

Example C30_case :
  let m : mem zops := hole [2;3; 1;0;4;5; 6;7]%Z 3 in
  let x := vec_at 0 2 in let y := vec_at 6 2 in let A := row_major 2 2 2 in
  succeeds (symmetric_matrix_rank_2_update x y A Lower) m (fun _ m' =>
    mat_holds_on m' A (in_tri Lower) (zm [[25;0];[36;47]]%Z) /\ changes_only m m' (mcells_on A (in_tri Lower))).
Proof.
  intros. eapply wp_conseq.
  - apply C30_syr2 with (a := zm [[1;0];[4;5]]%Z) (f := zv [2;3]%Z) (g := zv [6;7]%Z); concrete.
  - intros _ m' [H1 H2]; split; auto. eapply mat_holds_on_ext; [|exact H1].
    intros i j Hi Hj Ht. destruct i as [|[|i]]; [| |simpl in Hi; lia]; (destruct j as [|[|j]]; [| |simpl in Hj; lia]); simpl in Ht; try reflexivity; lia.
Qed.

(** * C31 *)
(** [herm_of t a] is the Hermitian matrix of the triangle: on the triangle it is [a] with the diagonal
    replaced by its real part. *)
Theorem C31_her_alpha : forall (O : ops) (m : mem O) alpha x A t a f,
  ext0 A = ext1 A -> vext x = ext0 A ->
  mat_holds_on m A (in_tri t) a -> vec_holds m x f -> mwritable_on A (in_tri t) ->
  disjoint (vcells x) (mcells_on A (in_tri t)) ->
  succeeds (hermitian_matrix_rank_1_update_alpha alpha x A t) m (fun _ m' =>
    mat_holds_on m' A (in_tri t) (fun i j => herm_of t a i j + alpha * f i * conj (f j)) /\
    changes_only m m' (mcells_on A (in_tri t))).
Proof. exact (@her_alpha_ok). Qed.
Print Assumptions C31_her_alpha.

Theorem C31_her : forall (O : ops) (m : mem O) x A t a f,
  ext0 A = ext1 A -> vext x = ext0 A ->
  mat_holds_on m A (in_tri t) a -> vec_holds m x f -> mwritable_on A (in_tri t) ->
  disjoint (vcells x) (mcells_on A (in_tri t)) ->
  succeeds (hermitian_matrix_rank_1_update x A t) m (fun _ m' =>
    mat_holds_on m' A (in_tri t) (fun i j => herm_of t a i j + f i * conj (f j)) /\
    changes_only m m' (mcells_on A (in_tri t))).
Proof. exact (@her_ok). Qed.
Print Assumptions C31_her.

Theorem C31_her2 : forall (O : ops) (m : mem O) x y A t a f g,
  ext0 A = ext1 A -> vext x = ext0 A -> vext y = ext0 A ->
  mat_holds_on m A (in_tri t) a -> vec_holds m x f -> vec_holds m y g -> mwritable_on A (in_tri t) ->
  disjoint (vcells x) (mcells_on A (in_tri t)) -> disjoint (vcells y) (mcells_on A (in_tri t)) ->
  succeeds (hermitian_matrix_rank_2_update x y A t) m (fun _ m' =>
    mat_holds_on m' A (in_tri t) (fun i j => herm_of t a i j + (f i * conj (g j) + g i * conj (f j))) /\
    changes_only m m' (mcells_on A (in_tri t))).
Proof. exact (@her2_ok). Qed.
Print Assumptions C31_her2.

Theorem C31_her_alpha_real_diagonal : forall (O : ops) (m : mem O) alpha x A t a f,
  ring_laws O -> conj_laws O -> mul_commutes O -> conj alpha = alpha ->
  ext0 A = ext1 A -> vext x = ext0 A ->
  mat_holds_on m A (in_tri t) a -> vec_holds m x f -> mwritable_on A (in_tri t) ->
  disjoint (vcells x) (mcells_on A (in_tri t)) ->
  succeeds (hermitian_matrix_rank_1_update_alpha alpha x A t) m (fun _ m' => real_diagonal m' A).
Proof. exact (@her_alpha_real). Qed.
Print Assumptions C31_her_alpha_real_diagonal.

Theorem C31_her_real_diagonal : forall (O : ops) (m : mem O) x A t a f,
  conj_laws O ->
  ext0 A = ext1 A -> vext x = ext0 A ->
  mat_holds_on m A (in_tri t) a -> vec_holds m x f -> mwritable_on A (in_tri t) ->
  disjoint (vcells x) (mcells_on A (in_tri t)) ->
  succeeds (hermitian_matrix_rank_1_update x A t) m (fun _ m' => real_diagonal m' A).
Proof. exact (@her_real). Qed.
Print Assumptions C31_her_real_diagonal.

Theorem C31_her2_real_diagonal : forall (O : ops) (m : mem O) x y A t a f g,
  add_laws O -> conj_laws O ->
  ext0 A = ext1 A -> vext x = ext0 A -> vext y = ext0 A ->
  mat_holds_on m A (in_tri t) a -> vec_holds m x f -> vec_holds m y g -> mwritable_on A (in_tri t) ->
  disjoint (vcells x) (mcells_on A (in_tri t)) -> disjoint (vcells y) (mcells_on A (in_tri t)) ->
  succeeds (hermitian_matrix_rank_2_update x y A t) m (fun _ m' => real_diagonal m' A).
Proof. exact (@her2_real). Qed.
Print Assumptions C31_her2_real_diagonal.

Example C31_case :
  let m : mem gops := mem_of [(1,1);(0,2); (5,99);(1,0);(2,0);(7,-99)]%Z in
  let x := vec_at 0 2 in let A := row_major 2 2 2 in
  succeeds (hermitian_matrix_rank_1_update x A Upper) m (fun _ m' =>
    mat_holds_on m' A (in_tri Upper) (gm [[(7,0);(3,-2)];[(0,0);(11,0)]]%Z) /\ changes_only m m' (mcells_on A (in_tri Upper))).
Proof.
  intros. eapply wp_conseq.
  - apply C31_her with (a := gm [[(5,99);(1,0)];[(2,0);(7,-99)]]%Z) (f := gv [(1,1);(0,2)]%Z); concrete.
  - intros _ m' [H1 H2]; split; auto. eapply mat_holds_on_ext; [|exact H1].
    intros i j Hi Hj Ht. destruct i as [|[|i]]; [| |simpl in Hi; lia]; (destruct j as [|[|j]]; [| |simpl in Hj; lia]); simpl in Ht; try reflexivity; lia.
Qed.
(** A complex alpha leaves a non-real diagonal (why the real-diagonal theorem assumes conj alpha = alpha). *)
Theorem C31_complex_alpha_refuted : exists (alpha : gops) (x : vec gops) (A : mat gops) (m : mem gops) a f,
  mat_holds_on m A (in_tri Upper) a /\ vec_holds m x f /\ ext0 A = ext1 A /\ vext x = ext0 A /\
  mwritable_on A (in_tri Upper) /\ disjoint (vcells x) (mcells_on A (in_tri Upper)) /\
  succeeds (hermitian_matrix_rank_1_update_alpha alpha x A Upper) m (fun _ m' => ~ real_diagonal m' A).
Proof.
  exists (0,1)%Z, (vec_at 0 1), (row_major 1 1 1), (mem_of [(1,0);(0,0)]%Z), (gm [[(0,0)]]%Z), (gv [(1,0)]%Z).
  split; [concrete|]. split; [concrete|]. split; [concrete|]. split; [concrete|]. split; [concrete|]. split; [concrete|].
  eexists _, _. split; [reflexivity|]. intros H. destruct (H 0) as (v & Hv & E); [simpl; lia|simpl; lia|].
  vm_compute in Hv. injection Hv as <-. vm_compute in E. discriminate E.
Qed.
Print Assumptions C31_complex_alpha_refuted.

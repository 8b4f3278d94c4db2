(** Property C58: the alpha, beta and op(A) arguments of the BLAS, expressed by the views that P1673 replaces them by. *)
From Coq Require Import List Arith ZArith Lia Bool QArith Qcanon.
From Verif Require Import Mem Scalar View Spec SpecOp Idx Wp Sums Alg Blas1 Blas2 Blas3 PfView PfBlas2 PfBlas3 PfOp Inst PropBlas2.
Import ListNotations.
Local Open Scope nat_scope.
Local Open Scope sc_scope.

(** The hypotheses on conjugation hold of the Gaussian integers and of the rationals. *)
Lemma gconj_ok : conj_ok gops false.
Proof. split; [exact (conj_conj gconj)|discriminate]. Qed.
Lemma qconj_ok : conj_ok qops true.
Proof. split; auto. Qed.
Lemma qconj : conj_laws qops.
Proof. constructor; auto. exact (fun x y => qcomm x y). Qed.

(** * C58 *)
(** y = alpha op(A) x + beta y in place. *)
Theorem C58_gemv : forall (O : ops) fp fnc nc o (m : mem O) A Av x y alpha beta a f g,
  ring_laws O -> conj_ok O nc -> op_view fp fnc nc o A Av -> layout_ok (mlay A) (ext0 A) (ext1 A) ->
  vext x = op_cols o A -> vext y = op_rows o A ->
  mat_holds m A a -> vec_holds m x f -> vec_holds m y g -> vwritable y ->
  disjoint (mcells A) (vcells y) -> disjoint (vcells x) (vcells y) ->
  succeeds (matrix_vector_product_upd (scaled_m alpha Av) x (scaled_v beta y) y) m (fun _ m' =>
    vec_holds m' y (fun i => beta * g i + alpha * bigsum (op_cols o A) (fun j => op_el o a i j * f j)) /\
    changes_only m m' (vcells y)).
Proof. exact (@gemv_op). Qed.
Print Assumptions C58_gemv.

(** y = (2+i) A^H x - y over Gaussian integers, A a 2x3 row-major matrix. *)
Example C58_gemv_case :
  let m : mem gops := mem_of [(1,1);(2,0);(0,3); (4,0);(5,0);(0,-6); (1,0);(0,1); (7,7);(7,0);(0,7); (8,8)]%Z in
  let A : mat gops := row_major 0 2 3 in let Av : mat gops := Mat 0 3 2 LLeft (AConj ADefault) in let y : vec gops := vec_at 8 3 in
  succeeds (matrix_vector_product_upd (scaled_m ((2,1)%Z : gops) Av) (vec_at 6 2) (scaled_v ((-1,0)%Z : gops) y) y) m (fun _ m' =>
    vec_holds m' y (gv [(-8,0);(-8,12);(-9,-19)]%Z) /\ changes_only m m' (vcells y)).
Proof.
  intros. eapply wp_conseq.
  - apply C58_gemv with (fp := false) (fnc := false) (nc := false) (o := ConjTrans) (A := A)
      (a := gm [[(1,1);(2,0);(0,3)]; [(4,0);(5,0);(0,-6)]]%Z) (f := gv [(1,0);(0,1)]%Z) (g := gv [(7,7);(7,0);(0,7)]%Z);
    first [apply gring | exact gconj_ok | exact I | exact eq_refl | concrete].
  - intros _ m' [H1 H2]; split; auto. eapply vec_holds_ext; [|exact H1].
    intros i Hi. destruct i as [|[|[|i]]]; try reflexivity. simpl in Hi; lia.
Qed.

(** C = alpha op(A) op(B) + beta C in place; nine combinations of op(A) and op(B). *)
Theorem C58_gemm : forall (O : ops) fpa fpb fnc nc oa ob (m : mem O) A Av B Bv C alpha beta a b c,
  ring_laws O -> conj_ok O nc ->
  op_view fpa fnc nc oa A Av -> op_view fpb fnc nc ob B Bv ->
  layout_ok (mlay A) (ext0 A) (ext1 A) -> layout_ok (mlay B) (ext0 B) (ext1 B) ->
  ext0 C = op_rows oa A -> op_cols oa A = op_rows ob B -> ext1 C = op_cols ob B ->
  mat_holds m A a -> mat_holds m B b -> mat_holds m C c -> mwritable C ->
  disjoint (mcells A) (mcells C) -> disjoint (mcells B) (mcells C) ->
  succeeds (matrix_product_upd (scaled_m alpha Av) Bv (scaled_m beta C) C) m (fun _ m' =>
    mat_holds m' C (fun i j => beta * c i j + alpha * bigsum (op_cols oa A) (fun k => op_el oa a i k * op_el ob b k j)) /\
    changes_only m m' (mcells C)).
Proof. exact (@gemm_op). Qed.
Print Assumptions C58_gemm.

(** C = 2 A^T B^H + i C, A column-major 2x2, B row-major 1x2. *)
Example C58_gemm_case :
  let m : mem gops := mem_of [(1,0);(0,2); (3,0);(4,1); (1,1);(0,1); (1,0);(2,0);(3,0);(4,0)]%Z in
  let A : mat gops := col_major 0 1 2 in let Av : mat gops := Mat 0 2 1 LRight ADefault in
  let B : mat gops := col_major 4 2 1 in let Bv : mat gops := Mat 4 1 2 LRight (AConj ADefault) in let C : mat gops := row_major 6 2 2 in
  succeeds (matrix_product_upd (scaled_m ((2,0)%Z : gops) Av) Bv (scaled_m ((0,1)%Z : gops) C) C) m (fun _ m' =>
    mat_holds m' C (gm [[(2,-1);(0,0)];[(4,7);(4,4)]]%Z) /\ changes_only m m' (mcells C)).
Proof.
  intros. eapply wp_conseq.
  - apply C58_gemm with (fpa := false) (fpb := false) (fnc := false) (nc := false) (oa := Trans) (ob := ConjTrans) (A := A) (B := B)
      (a := gm [[(1,0);(0,2)]]%Z) (b := gm [[(1,1)];[(0,1)]]%Z) (c := gm [[(1,0);(2,0)];[(3,0);(4,0)]]%Z);
    first [apply gring | exact gconj_ok | exact I | exact eq_refl | concrete].
  - intros _ m' [H1 H2]; split; auto. eapply mat_holds_on_ext; [|exact H1].
    intros i j Hi Hj _. destruct i as [|[|i]]; [| |simpl in Hi; lia]; (destruct j as [|[|j]]; [reflexivity|reflexivity|simpl in Hj; lia]).
Qed.

(** A = A + alpha x y^T *)
Theorem C58_ger : forall (O : ops) (m : mem O) alpha x y A a f g,
  vext x = ext0 A -> vext y = ext1 A ->
  mat_holds m A a -> vec_holds m x f -> vec_holds m y g -> mwritable A ->
  disjoint (vcells x) (mcells A) -> disjoint (vcells y) (mcells A) ->
  succeeds (matrix_rank_1_update (scaled_v alpha x) y A) m (fun _ m' =>
    mat_holds m' A (fun i j => a i j + alpha * f i * g j) /\ changes_only m m' (mcells A)).
Proof. exact (@ger_scaled). Qed.
Print Assumptions C58_ger.

Example C58_ger_case :
  let m : mem gops := mem_of [(1,0);(0,2); (1,1);(0,1); (1,0);(2,0);(3,0);(4,0)]%Z in
  let x : vec gops := vec_at 0 2 in let y : vec gops := vec_at 2 2 in let A : mat gops := row_major 4 2 2 in
  succeeds (matrix_rank_1_update (scaled_v ((0,3)%Z : gops) x) y A) m (fun _ m' =>
    mat_holds m' A (gm [[(-2,3);(-1,0)];[(-3,-6);(4,-6)]]%Z) /\ changes_only m m' (mcells A)).
Proof.
  intros. eapply wp_conseq.
  - apply C58_ger with (a := gm [[(1,0);(2,0)];[(3,0);(4,0)]]%Z) (f := gv [(1,0);(0,2)]%Z) (g := gv [(1,1);(0,1)]%Z);
    first [exact gconj_ok | concrete].
  - intros _ m' [H1 H2]; split; auto. eapply mat_holds_on_ext; [|exact H1].
    intros i j Hi Hj _. destruct i as [|[|i]]; [| |simpl in Hi; lia]; (destruct j as [|[|j]]; [reflexivity|reflexivity|simpl in Hj; lia]).
Qed.

(** A = A + alpha x y^H *)
Theorem C58_gerc : forall (O : ops) (m : mem O) fnc nc alpha x y A a f g,
  conj_ok O nc -> vext x = ext0 A -> vext y = ext1 A ->
  mat_holds m A a -> vec_holds m x f -> vec_holds m y g -> mwritable A ->
  disjoint (vcells x) (mcells A) -> disjoint (vcells y) (mcells A) ->
  succeeds (matrix_rank_1_update_c fnc nc (scaled_v alpha x) y A) m (fun _ m' =>
    mat_holds m' A (fun i j => a i j + alpha * f i * conj (g j)) /\ changes_only m m' (mcells A)).
Proof. exact (@gerc_scaled). Qed.
Print Assumptions C58_gerc.

Example C58_gerc_case :
  let m : mem gops := mem_of [(1,0);(0,2); (1,1);(0,1); (1,0);(2,0);(3,0);(4,0)]%Z in
  let x : vec gops := vec_at 0 2 in let y : vec gops := vec_at 2 2 in let A : mat gops := row_major 4 2 2 in
  succeeds (matrix_rank_1_update_c false false (scaled_v ((0,3)%Z : gops) x) y A) m (fun _ m' =>
    mat_holds m' A (gm [[(4,3);(5,0)];[(-3,6);(4,6)]]%Z) /\ changes_only m m' (mcells A)).
Proof.
  intros. eapply wp_conseq.
  - apply C58_gerc with (a := gm [[(1,0);(2,0)];[(3,0);(4,0)]]%Z) (f := gv [(1,0);(0,2)]%Z) (g := gv [(1,1);(0,1)]%Z);
    first [exact gconj_ok | concrete].
  - intros _ m' [H1 H2]; split; auto. eapply mat_holds_on_ext; [|exact H1].
    intros i j Hi Hj _. destruct i as [|[|i]]; [| |simpl in Hi; lia]; (destruct j as [|[|j]]; [reflexivity|reflexivity|simpl in Hj; lia]).
Qed.

(** y = op(T) (alpha x); the triangle argument is that of op(T). *)
Theorem C58_trmv : forall (O : ops) fp fnc nc o (m : mem O) alpha A Av t d x y a f,
  ring_laws O -> conj_ok O nc -> (o = ConjTrans -> conj_laws O) ->
  op_view fp fnc nc o A Av -> layout_ok (mlay A) (ext0 A) (ext1 A) ->
  ext0 A = ext1 A -> vext x = ext0 A -> vext y = ext0 A ->
  mat_holds_on m A (stored t d) a -> vec_holds m x f -> vwritable y -> allocated m (vcells y) ->
  disjoint (mcells_on A (stored t d)) (vcells y) -> disjoint (vcells x) (vcells y) ->
  succeeds (triangular_matrix_vector_product Av (op_tri o t) d (scaled_v alpha x) y) m (fun _ m' =>
    vec_holds m' y (fun i => bigsum (ext0 A) (fun j => op_el o (tri_of t d a) i j * (alpha * f j))) /\
    changes_only m m' (vcells y)).
Proof. exact (@trmv_op). Qed.
Print Assumptions C58_trmv.

(** y = T^H (i x), T the upper triangle of a matrix whose lower half is not allocated. *)
Example C58_trmv_case :
  let m : mem gops := hole [(1,1);(2,0); (9,9);(0,3); (1,0);(0,1); (7,7);(7,7)]%Z 2 in
  let A : mat gops := row_major 0 2 2 in let Av : mat gops := Mat 0 2 2 LLeft (AConj ADefault) in let y : vec gops := vec_at 6 2 in
  succeeds (triangular_matrix_vector_product Av Lower Explicit (scaled_v ((0,1)%Z : gops) (vec_at 4 2)) y) m (fun _ m' =>
    vec_holds m' y (gv [(1,1);(0,5)]%Z) /\ changes_only m m' (vcells y)).
Proof.
  intros. eapply wp_conseq.
  - apply C58_trmv with (fp := false) (fnc := false) (nc := false) (o := ConjTrans) (t := Upper) (A := A)
      (a := gm [[(1,1);(2,0)];[(0,0);(0,3)]]%Z) (f := gv [(1,0);(0,1)]%Z);
    first [apply gring | exact gconj_ok | exact (fun _ => gconj) | exact I | exact eq_refl | concrete].
  - intros _ m' [H1 H2]; split; auto. eapply vec_holds_ext; [|exact H1].
    intros i Hi. destruct i as [|[|i]]; try reflexivity. simpl in Hi; lia.
Qed.

(** Solves op(T) x = alpha b; b may be x itself. *)
Theorem C58_trsv : forall (O : ops) fp fnc nc o ty (m : mem O) alpha A Av t d B X a b,
  ring_laws O -> div_laws O -> conj_ok O nc -> (o = ConjTrans -> conj_laws O) ->
  op_view fp fnc nc o A Av -> layout_ok (mlay A) (ext0 A) (ext1 A) ->
  fits ty (ext0 A) -> (ext0 A = 0 -> op_tri o t = Upper -> ty <> U32) ->
  ext0 A = ext1 A -> vext B = ext0 A -> vext X = ext0 A ->
  mat_holds_on m A (stored t d) a -> vec_holds m B b -> vwritable X -> allocated m (vcells X) ->
  disjoint (mcells_on A (stored t d)) (vcells X) -> disjoint_or_aligned_v B X ->
  (d = Explicit -> forall i, i < ext0 A -> a i i <> zero) ->
  succeeds (triangular_matrix_vector_solve ty Av (op_tri o t) d (scaled_v alpha B) X) m (fun _ m' =>
    (exists f, vec_holds m' X f /\
      forall i, i < ext0 A -> bigsum (ext0 A) (fun j => op_el o (tri_of t d a) i j * f j) = alpha * b i)
    /\ changes_only m m' (vcells X)).
Proof. exact (@trsv_op). Qed.
Print Assumptions C58_trsv.

(** T^T x = 2 b in place, T the upper triangle. *)
Example C58_trsv_case :
  let q (a : Z) : qops := Q2Qc (inject_Z a) in
  let m : mem qops := hole [q 2; q 3; q 0; q 4; q 1; q 2]%Z 2 in
  let A : mat qops := row_major 0 2 2 in let Av : mat qops := Mat 0 2 2 LLeft ADefault in let x : vec qops := vec_at 4 2 in
  succeeds (triangular_matrix_vector_solve U32 Av Lower Explicit (scaled_v (q 2%Z) x) x) m (fun _ m' =>
    (exists f, vec_holds m' x f /\
      forall i, i < 2 -> bigsum 2 (fun j => tri_of Upper Explicit (melt [[q 2; q 3]; [q 0; q 4]]%Z) j i * f j) = q 2%Z * velt [q 1; q 2]%Z i)
    /\ changes_only m m' (vcells x)).
Proof.
  intros. apply C58_trsv with (fp := false) (fnc := false) (nc := true) (o := Trans) (t := Upper) (A := A);
  first [apply qring | apply qdiv | exact qconj_ok | exact I | exact eq_refl | discriminate | (right; intros ? ?; reflexivity) | (right; intros ? ? ? ?; reflexivity) | concrete].
  - unfold fits; split; vm_compute; congruence.
  - intros _ i Hi. destruct i as [|[|i]]; [| |simpl in Hi; lia]; intros E; apply (f_equal this) in E; discriminate E.
Qed.

(** Solves op(T) X = alpha B; B may be X itself. *)
Theorem C58_trsm_left : forall (O : ops) fp fnc nc o ty (m : mem O) alpha A Av t d B X a b,
  ring_laws O -> div_laws O -> conj_ok O nc -> (o = ConjTrans -> conj_laws O) ->
  op_view fp fnc nc o A Av -> layout_ok (mlay A) (ext0 A) (ext1 A) ->
  fits ty (ext0 A) -> (ext0 A = 0 -> op_tri o t = Upper -> ty <> U32) ->
  ext0 A = ext1 A -> ext0 B = ext0 A -> ext0 X = ext0 A -> ext1 X = ext1 B ->
  mat_holds_on m A (stored t d) a -> mat_holds m B b -> mwritable X -> allocated m (mcells X) ->
  disjoint (mcells_on A (stored t d)) (mcells X) -> disjoint_or_aligned_m B X ->
  (d = Explicit -> forall i, i < ext0 A -> a i i <> zero) ->
  succeeds (triangular_matrix_matrix_left_solve ty Av (op_tri o t) d (scaled_m alpha B) X) m (fun _ m' =>
    (exists x, mat_holds m' X x /\
      forall i j, i < ext0 X -> j < ext1 X ->
        bigsum (ext0 A) (fun k => op_el o (tri_of t d a) i k * x k j) = alpha * b i j)
    /\ changes_only m m' (mcells X)).
Proof. exact (@trsm_left_op). Qed.
Print Assumptions C58_trsm_left.

(** T^H X = 3 B in place, T the upper triangle (a real element type, so T^H = T^T). *)
Example C58_trsm_left_case :
  let q (a : Z) : qops := Q2Qc (inject_Z a) in
  let m : mem qops := hole [q 2; q 3; q 0; q 4; q 1; q 2; q 3; q 4]%Z 2 in
  let A : mat qops := row_major 0 2 2 in let Av : mat qops := Mat 0 2 2 LLeft ADefault in let X : mat qops := col_major 4 2 2 in
  succeeds (triangular_matrix_matrix_left_solve U16 Av Lower Explicit (scaled_m (q 3%Z) X) X) m (fun _ m' =>
    (exists x, mat_holds m' X x /\
      forall i j, i < ext0 X -> j < ext1 X ->
        bigsum 2 (fun k => tri_of Upper Explicit (melt [[q 2; q 3]; [q 0; q 4]]%Z) k i * x k j)
        = q 3%Z * melt [[q 1; q 3]; [q 2; q 4]]%Z i j)
    /\ changes_only m m' (mcells X)).
Proof.
  intros. apply C58_trsm_left with (fp := false) (fnc := true) (nc := true) (o := ConjTrans) (t := Upper) (A := A);
  first [apply qring | apply qdiv | exact qconj_ok | exact (fun _ => qconj) | exact I | exact eq_refl | discriminate | (right; intros ? ?; reflexivity) | (right; intros ? ? ? ?; reflexivity) | concrete].
  - unfold fits; split; vm_compute; congruence.
  - intros _ i Hi. destruct i as [|[|i]]; [| |simpl in Hi; lia]; intros E; apply (f_equal this) in E; discriminate E.
Qed.

(** Solves X op(T) = alpha B; B may be X itself. *)
Theorem C58_trsm_right : forall (O : ops) fp fnc nc o ty (m : mem O) alpha A Av t d B X a b,
  ring_laws O -> div_laws O -> conj_ok O nc -> (o = ConjTrans -> conj_laws O) ->
  op_view fp fnc nc o A Av -> layout_ok (mlay A) (ext0 A) (ext1 A) ->
  (op_tri o t = Lower -> fits (make_signed ty) (ext0 A)) ->
  ext0 A = ext1 A -> ext1 B = ext0 A -> ext1 X = ext0 A -> ext0 X = ext0 B ->
  mat_holds_on m A (stored t d) a -> mat_holds m B b -> mwritable X -> allocated m (mcells X) ->
  disjoint (mcells_on A (stored t d)) (mcells X) -> disjoint_or_aligned_m B X ->
  (d = Explicit -> forall i, i < ext0 A -> a i i <> zero) ->
  succeeds (triangular_matrix_matrix_right_solve ty Av (op_tri o t) d (scaled_m alpha B) X) m (fun _ m' =>
    (exists x, mat_holds m' X x /\
      forall i j, i < ext0 X -> j < ext1 X ->
        bigsum (ext0 A) (fun k => x i k * op_el o (tri_of t d a) k j) = alpha * b i j)
    /\ changes_only m m' (mcells X)).
Proof. exact (@trsm_right_op). Qed.
Print Assumptions C58_trsm_right.

(** X T^T = 3 B in place, T the lower triangle. *)
Example C58_trsm_right_case :
  let q (a : Z) : qops := Q2Qc (inject_Z a) in
  let m : mem qops := hole [q 2; q 0; q 3; q 4; q 1; q 2; q 3; q 4]%Z 1 in
  let A : mat qops := row_major 0 2 2 in let Av : mat qops := Mat 0 2 2 LLeft ADefault in let X : mat qops := row_major 4 2 2 in
  succeeds (triangular_matrix_matrix_right_solve U8 Av Upper Explicit (scaled_m (q 3%Z) X) X) m (fun _ m' =>
    (exists x, mat_holds m' X x /\
      forall i j, i < ext0 X -> j < ext1 X ->
        bigsum 2 (fun k => x i k * tri_of Lower Explicit (melt [[q 2; q 0]; [q 3; q 4]]%Z) j k)
        = q 3%Z * melt [[q 1; q 2]; [q 3; q 4]]%Z i j)
    /\ changes_only m m' (mcells X)).
Proof.
  intros. apply C58_trsm_right with (fp := false) (fnc := true) (nc := true) (o := Trans) (t := Lower) (A := A);
  first [apply qring | apply qdiv | exact qconj_ok | exact I | exact eq_refl | discriminate | (right; intros ? ?; reflexivity) | (right; intros ? ? ? ?; reflexivity) | concrete].
  - intros _ i Hi. destruct i as [|[|i]]; [| |simpl in Hi; lia]; intros E; apply (f_equal this) in E; discriminate E.
Qed.


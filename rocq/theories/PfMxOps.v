(** Proofs for C75: the operations. *)
From mathcomp Require Import all_ssreflect all_algebra.
From Coq Require Import ZArith.
From Verif Require Import Mem Scalar View Spec SpecMx PfMx Idx Wp Blas2 Blas3 PropView PropBlas2 PropBlas3.
Set Implicit Arguments.
Local Open Scope ring_scope.
Import GRing.Theory.

Section Mx.
Variable R : comUnitRingType.
Notation O := (ring_ops R).
Notation L := (ring_ops_ring R).
Arguments C21_gemv {O m A x y a f}.
Arguments C22_gemv_updating {O m A x y z a f g}.
Arguments C23_symv {O m A t x y a f}.
Arguments C25_trmv {O m A t d x y a f}.
Arguments C25_trmv_inplace {O m A t d y a f}.
Arguments C29_ger {O m x y A a f g}.
Arguments C32_gemm {O m A B C a b}.
Arguments C33_gemm_updating {O m A B E C a b e}.
Arguments C35_left_inplace {O m A t d C a c}.
Arguments C35_right_inplace {O m A t d C a c}.
Arguments C36_symm_left {O m A t B C a b}.
Arguments C36_symm_right {O m B A t C a b}.
Arguments C39_syrk {O m A C t a c}.
Arguments C39_syr2k {O m A B C t a b c}.
Arguments C41_trsm_left_ring {O ty m A t d B X a b}.
Arguments C42_trsm_right_ring {O ty m A t d B X a b}.

Lemma holds_on_frame (m m' : mem O) A P p q (M : 'M[R]_(p, q)) S :
  holds_mx_on m A P M -> changes_only m m' S -> disjoint (mcells_on A P) S -> holds_mx_on m' A P M.
Proof.
move=> H C D. have [E0 [E1 _]] := H.
refine (nf_holds_on (f := nf M) E0 E1 _ _); last by move=> i j _; exact: nfE.
exact: (mat_holds_frame (holds_on_nf H) C D).
Qed.
Lemma holds_alloc (m : mem O) A p q (M : 'M[R]_(p, q)) : holds_mx m A M -> allocated m (mcells A).
Proof. move=> H. exact: (mat_holds_alloc (holds_nf H)). Qed.

Lemma gemv_mx (m : mem O) A x y p q (M : 'M[R]_(p, q)) (v : 'cV_q) :
  holds_mx m A M -> holds_cv m x v -> vext y = p -> vwritable y -> allocated m (vcells y) ->
  disjoint (mcells A) (vcells y) -> disjoint (vcells x) (vcells y) ->
  succeeds (matrix_vector_product A x y) m (fun _ m' => holds_cv m' y (M *m v) /\ changes_only m m' (vcells y)).
Proof.
move=> HA Hx Ey Wy Ay D1 D2. have [E0 [E1 _]] := HA; have [Ex _] := Hx.
have [r [m' [Hr [H C]]]] := C21_gemv (etrans Ex (esym E1)) (etrans Ey (esym E0)) (holds_nf HA) (holds_nv Hx) Wy Ay D1 D2.
exists r, m'; split=> //; split=> //. apply: (nv_holds Ey H) => i.
by rewrite E1 bigsumE mxE; apply: eq_bigr => k _; rewrite /= nfE nvE.
Qed.

Lemma gemv_upd_mx (m : mem O) A x y z p q (M : 'M[R]_(p, q)) (v : 'cV_q) (w : 'cV_p) :
  holds_mx m A M -> holds_cv m x v -> holds_cv m y w -> vext z = p -> vwritable z -> allocated m (vcells z) ->
  disjoint (mcells A) (vcells z) -> disjoint (vcells x) (vcells z) -> disjoint_or_aligned_v y z ->
  succeeds (matrix_vector_product_upd A x y z) m (fun _ m' => holds_cv m' z (w + M *m v) /\ changes_only m m' (vcells z)).
Proof.
move=> HA Hx Hy Ez Wz Az D1 D2 D3. have [E0 [E1 _]] := HA; have [Ex _] := Hx; have [Ey _] := Hy.
have [r [m' [Hr [H C]]]] := C22_gemv_updating (etrans Ex (esym E1)) (etrans Ey (esym E0)) (etrans Ez (esym E0))
  (holds_nf HA) (holds_nv Hx) (holds_nv Hy) Wz Az D1 D2 D3.
exists r, m'; split=> //; split=> //. apply: (nv_holds Ez H) => i.
by rewrite E1 sum_fromE !mxE nvE; congr (_ + _); apply: eq_bigr => k _; rewrite /= nfE nvE.
Qed.

Lemma symv_mx (m : mem O) A t x y n (M : 'M[R]_n) (v : 'cV_n) : symmetric_mx M ->
  holds_mx_on m A (in_tri t) M -> holds_cv m x v -> vext y = n -> vwritable y -> allocated m (vcells y) ->
  disjoint (mcells_on A (in_tri t)) (vcells y) -> disjoint (vcells x) (vcells y) ->
  succeeds (symmetric_matrix_vector_product A t x y) m (fun _ m' => holds_cv m' y (M *m v) /\ changes_only m m' (vcells y)).
Proof.
move=> HS HA Hx Ey Wy Ay D1 D2. have [E0 [E1 _]] := HA; have [Ex _] := Hx.
have [r [m' [Hr [H C]]]] := C23_symv (etrans E0 (esym E1)) (etrans Ex (esym E1)) (etrans Ey (esym E0)) (holds_on_nf HA) (holds_nv Hx) Wy Ay D1 D2.
exists r, m'; split=> //; split=> //. apply: (nv_holds Ey H) => i.
by rewrite E1 bigsumE mxE; apply: eq_bigr => k _; rewrite /= sym_ofE // nvE.
Qed.

Lemma trmv_mx (m : mem O) A t d x y n (M : 'M[R]_n) (v : 'cV_n) : triangular t d M ->
  holds_mx_on m A (stored t d) M -> holds_cv m x v -> vext y = n -> vwritable y -> allocated m (vcells y) ->
  disjoint (mcells_on A (stored t d)) (vcells y) -> disjoint (vcells x) (vcells y) ->
  succeeds (triangular_matrix_vector_product A t d x y) m (fun _ m' => holds_cv m' y (M *m v) /\ changes_only m m' (vcells y)).
Proof.
move=> T HA Hx Ey Wy Ay D1 D2. have [E0 [E1 _]] := HA; have [Ex _] := Hx.
have [r [m' [Hr [H C]]]] := C25_trmv L (etrans E0 (esym E1)) (etrans Ex (esym E1)) (etrans Ey (esym E0)) (holds_on_nf HA) (holds_nv Hx) Wy Ay D1 D2.
exists r, m'; split=> //; split=> //. apply: (nv_holds Ey H) => i.
by rewrite E1 bigsumE mxE; apply: eq_bigr => k _; rewrite /= tri_ofE // nvE.
Qed.

Lemma trmv_inplace_mx (m : mem O) A t d y n (M : 'M[R]_n) (v : 'cV_n) : triangular t d M ->
  holds_mx_on m A (stored t d) M -> holds_cv m y v -> vwritable y -> disjoint (mcells_on A (stored t d)) (vcells y) ->
  succeeds (triangular_matrix_vector_product_inplace A t d y) m (fun _ m' => holds_cv m' y (M *m v) /\ changes_only m m' (vcells y)).
Proof.
move=> T HA Hy Wy D1. have [E0 [E1 _]] := HA; have [Ey _] := Hy.
have [r [m' [Hr [H C]]]] := C25_trmv_inplace L (@ring_ops_comm R) (etrans E0 (esym E1)) (etrans Ey (esym E0)) (holds_on_nf HA) (holds_nv Hy) Wy D1.
exists r, m'; split=> //; split=> //. apply: (nv_holds Ey H) => i.
by rewrite E1 bigsumE mxE; apply: eq_bigr => k _; rewrite /= tri_ofE // nvE.
Qed.

Lemma ger_mx (m : mem O) x y A p q (M : 'M[R]_(p, q)) (v : 'cV_p) (w : 'cV_q) :
  holds_mx m A M -> holds_cv m x v -> holds_cv m y w -> mwritable A ->
  disjoint (vcells x) (mcells A) -> disjoint (vcells y) (mcells A) ->
  succeeds (matrix_rank_1_update x y A) m (fun _ m' => holds_mx m' A (M + v *m w^T) /\ changes_only m m' (mcells A)).
Proof.
move=> HA Hx Hy WA D1 D2. have [E0 [E1 _]] := HA; have [Ex _] := Hx; have [Ey _] := Hy.
have [r [m' [Hr [H C]]]] := C29_ger (etrans Ex (esym E0)) (etrans Ey (esym E1)) (holds_nf HA) (holds_nv Hx) (holds_nv Hy) WA D1 D2.
exists r, m'; split=> //; split=> //. apply: (nf_holds_on E0 E1 H) => i j _.
by rewrite /= !mxE big_ord1 mxE nfE !nvE.
Qed.

Lemma gemm_mx (m : mem O) A B C p q r (M : 'M[R]_(p, q)) (N : 'M[R]_(q, r)) :
  holds_mx m A M -> holds_mx m B N -> ext0 C = p -> ext1 C = r -> mwritable C -> allocated m (mcells C) ->
  disjoint (mcells A) (mcells C) -> disjoint (mcells B) (mcells C) ->
  succeeds (matrix_product A B C) m (fun _ m' => holds_mx m' C (M *m N) /\ changes_only m m' (mcells C)).
Proof.
move=> HA HB EC0 EC1 WC AC D1 D2. have [E0 [E1 _]] := HA; have [F0 [F1 _]] := HB.
have [u [m' [Hr [H Ch]]]] := C32_gemm (etrans EC0 (esym E0)) (etrans E1 (esym F0)) (etrans EC1 (esym F1)) (holds_nf HA) (holds_nf HB) WC AC D1 D2.
exists u, m'; split=> //; split=> //. apply: (nf_holds_on EC0 EC1 H) => i j _.
by rewrite E1 bigsumE mxE; apply: eq_bigr => k _; rewrite /= !nfE.
Qed.

Lemma gemm_upd_mx (m : mem O) A B E C p q r (M : 'M[R]_(p, q)) (N : 'M[R]_(q, r)) (K : 'M[R]_(p, r)) :
  holds_mx m A M -> holds_mx m B N -> holds_mx m E K -> ext0 C = p -> ext1 C = r -> mwritable C -> allocated m (mcells C) ->
  disjoint (mcells A) (mcells C) -> disjoint (mcells B) (mcells C) -> disjoint_or_aligned_m E C ->
  succeeds (matrix_product_upd A B E C) m (fun _ m' => holds_mx m' C (K + M *m N) /\ changes_only m m' (mcells C)).
Proof.
move=> HA HB HE EC0 EC1 WC AC D1 D2 D3. have [E0 [E1 _]] := HA; have [F0 [F1 _]] := HB; have [G0 [G1 _]] := HE.
have [u [m' [Hr [H Ch]]]] := C33_gemm_updating (etrans EC0 (esym E0)) (etrans E1 (esym F0)) (etrans EC1 (esym F1))
  (etrans G0 (esym EC0)) (etrans G1 (esym EC1)) (holds_nf HA) (holds_nf HB) (holds_nf HE) WC AC D1 D2 D3.
exists u, m'; split=> //; split=> //. apply: (nf_holds_on EC0 EC1 H) => i j _.
by rewrite E1 sum_fromE !mxE nfE; congr (_ + _); apply: eq_bigr => k _; rewrite /= !nfE.
Qed.

Lemma trmm_left_inplace_mx (m : mem O) A t d C n r (M : 'M[R]_n) (N : 'M[R]_(n, r)) : triangular t d M ->
  holds_mx_on m A (stored t d) M -> holds_mx m C N -> mwritable C -> disjoint (mcells_on A (stored t d)) (mcells C) ->
  succeeds (triangular_matrix_left_product A t d C) m (fun _ m' => holds_mx m' C (M *m N) /\ changes_only m m' (mcells C)).
Proof.
move=> T HA HC WC D. have [E0 [E1 _]] := HA; have [F0 [F1 _]] := HC.
have [u [m' [Hr [H Ch]]]] := C35_left_inplace L (etrans E0 (esym E1)) (etrans F0 (esym E0)) (holds_on_nf HA) (holds_nf HC) WC D.
exists u, m'; split=> //; split=> //. apply: (nf_holds_on F0 F1 H) => i j _.
by rewrite E1 bigsumE mxE; apply: eq_bigr => k _; rewrite /= tri_ofE // nfE.
Qed.
Lemma trmm_right_inplace_mx (m : mem O) A t d C n r (M : 'M[R]_n) (N : 'M[R]_(r, n)) : triangular t d M ->
  holds_mx_on m A (stored t d) M -> holds_mx m C N -> mwritable C -> disjoint (mcells_on A (stored t d)) (mcells C) ->
  succeeds (triangular_matrix_right_product A t d C) m (fun _ m' => holds_mx m' C (N *m M) /\ changes_only m m' (mcells C)).
Proof.
move=> T HA HC WC D. have [E0 [E1 _]] := HA; have [F0 [F1 _]] := HC.
have [u [m' [Hr [H Ch]]]] := C35_right_inplace L (etrans E0 (esym E1)) (etrans F1 (esym E0)) (holds_on_nf HA) (holds_nf HC) WC D.
exists u, m'; split=> //; split=> //. apply: (nf_holds_on F0 F1 H) => i j _.
by rewrite E1 bigsumE mxE; apply: eq_bigr => k _; rewrite /= tri_ofE // nfE.
Qed.
Lemma symm_left_mx (m : mem O) A t B C n r (M : 'M[R]_n) (N : 'M[R]_(n, r)) : symmetric_mx M ->
  holds_mx_on m A (in_tri t) M -> holds_mx m B N -> ext0 C = n -> ext1 C = r -> mwritable C -> allocated m (mcells C) ->
  disjoint (mcells_on A (in_tri t)) (mcells C) -> disjoint (mcells B) (mcells C) ->
  succeeds (symmetric_matrix_product_left A t B C) m (fun _ m' => holds_mx m' C (M *m N) /\ changes_only m m' (mcells C)).
Proof.
move=> HS HA HB EC0 EC1 WC AC D1 D2. have [E0 [E1 _]] := HA; have [F0 [F1 _]] := HB.
have [u [m' [Hr [H Ch]]]] := C36_symm_left (etrans E0 (esym E1)) (etrans EC0 (esym E0)) (etrans E1 (esym F0)) (etrans EC1 (esym F1)) (holds_on_nf HA) (holds_nf HB) WC AC D1 D2.
exists u, m'; split=> //; split=> //. apply: (nf_holds_on EC0 EC1 H) => i j _.
by rewrite E1 bigsumE mxE; apply: eq_bigr => k _; rewrite /= sym_ofE // nfE.
Qed.
Lemma symm_right_mx (m : mem O) A t B C n r (M : 'M[R]_n) (N : 'M[R]_(r, n)) : symmetric_mx M ->
  holds_mx_on m A (in_tri t) M -> holds_mx m B N -> ext0 C = r -> ext1 C = n -> mwritable C -> allocated m (mcells C) ->
  disjoint (mcells_on A (in_tri t)) (mcells C) -> disjoint (mcells B) (mcells C) ->
  succeeds (symmetric_matrix_product_right B A t C) m (fun _ m' => holds_mx m' C (N *m M) /\ changes_only m m' (mcells C)).
Proof.
move=> HS HA HB EC0 EC1 WC AC D1 D2. have [E0 [E1 _]] := HA; have [F0 [F1 _]] := HB.
have [u [m' [Hr [H Ch]]]] := C36_symm_right (etrans E0 (esym E1)) (etrans EC0 (esym F0)) (etrans F1 (esym E0)) (etrans EC1 (esym E1)) (holds_on_nf HA) (holds_nf HB) WC AC D1 D2.
exists u, m'; split=> //; split=> //. apply: (nf_holds_on EC0 EC1 H) => i j _.
by rewrite E1 bigsumE mxE; apply: eq_bigr => k _; rewrite /= sym_ofE // nfE.
Qed.

Lemma syrk_mx (m : mem O) A C t n k (M : 'M[R]_(n, k)) (N : 'M[R]_n) :
  holds_mx m A M -> holds_mx_on m C (in_tri t) N -> mwritable_on C (in_tri t) -> disjoint (mcells A) (mcells_on C (in_tri t)) ->
  succeeds (symmetric_matrix_rank_k_update A C t) m (fun _ m' =>
    holds_mx_on m' C (in_tri t) (N + M *m M^T) /\ changes_only m m' (mcells_on C (in_tri t))).
Proof.
move=> HA HC WC D. have [E0 [E1 _]] := HA; have [F0 [F1 _]] := HC.
have [u [m' [Hr [H Ch]]]] := C39_syrk (etrans F0 (esym F1)) (etrans E0 (esym F0)) (holds_nf HA) (holds_on_nf HC) WC D.
exists u, m'; split=> //; split=> //. apply: (nf_holds_on F0 F1 H) => i j _.
by rewrite E1 sum_fromE !mxE nfE; congr (_ + _); apply: eq_bigr => l _; rewrite /= !nfE mxE.
Qed.
Lemma syr2k_mx (m : mem O) A B C t n k (M K : 'M[R]_(n, k)) (N : 'M[R]_n) :
  holds_mx m A M -> holds_mx m B K -> holds_mx_on m C (in_tri t) N -> mwritable_on C (in_tri t) ->
  disjoint (mcells A) (mcells_on C (in_tri t)) -> disjoint (mcells B) (mcells_on C (in_tri t)) ->
  succeeds (symmetric_matrix_rank_2k_update A B C t) m (fun _ m' =>
    holds_mx_on m' C (in_tri t) (N + M *m K^T + K *m M^T) /\ changes_only m m' (mcells_on C (in_tri t))).
Proof.
move=> HA HB HC WC D D2. have [E0 [E1 _]] := HA; have [F0 [F1 _]] := HC; have [G0 [G1 _]] := HB.
have [u [m' [Hr [H Ch]]]] := C39_syr2k (etrans F0 (esym F1)) (etrans E0 (esym F0)) (etrans G0 (esym F0)) (etrans G1 (esym E1)) (holds_nf HA) (holds_nf HB) (holds_on_nf HC) WC D D2.
exists u, m'; split=> //; split=> //. apply: (nf_holds_on F0 F1 H) => i j _.
rewrite E1 sum_fromE !mxE nfE -addrA -big_split; congr (_ + _); apply: eq_bigr => l _; by rewrite /= !nfE !mxE.
Qed.

(** * Solves *)
Lemma col_of n (f : nat -> O) : forall i : 'I_n, f i = (\col_i f i : 'cV[R]_n) i 0.
Proof. by move=> i; rewrite mxE. Qed.

Lemma trsv_mx ty (m : mem O) A t d B X n (M : 'M[R]_n) (v : 'cV_n) : triangular t d M -> M \in unitmx ->
  fits ty n -> (n = 0%N -> t = Upper -> ty <> U32) ->
  holds_mx_on m A (stored t d) M -> holds_cv m B v -> vext X = n -> vwritable X -> allocated m (vcells X) ->
  disjoint (mcells_on A (stored t d)) (vcells X) -> disjoint_or_aligned_v B X ->
  succeeds (triangular_matrix_vector_solve ty A t d B X) m (fun _ m' =>
    holds_cv m' X (invmx M *m v) /\ changes_only m m' (vcells X)).
Proof.
move=> T U F Z HA HB EX WX AX D1 D2. have [E0 [E1 _]] := HA; have [EB _] := HB.
have [u [m' [Hr [[f [H S]] Ch]]]] := PfTrsv.trsv_ok (divide := div) L (eq_ind_r (fits ty) F E0) (fun h => Z (etrans (esym E0) h)) (etrans E0 (esym E1)) (etrans EB (esym E0)) (etrans EX (esym E0))
  (holds_on_nf HA) (holds_nv HB) WX AX D1 D2 (eq_ind_r (fun k => div_ok div d k (nf M)) (proj1 (div_unit T U)) E0).
exists u, m'; split=> //; split=> //. apply: (nv_holds EX H) => i.
rewrite (col_of f i). congr (fun_of_matrix _ i 0). rewrite -[LHS](mulKmx U). congr (_ *m _).
apply/colP => k. have Lk : (k < ext0 A)%coq_nat by rewrite E0; apply/ltP.
rewrite -(nvE v) -(S k Lk) E0 bigsumE mxE. by apply: eq_bigr => l _; rewrite /= tri_ofE // mxE.
Qed.

Lemma trsm_left_mx ty (m : mem O) A t d B X n r (M : 'M[R]_n) (N : 'M[R]_(n, r)) : triangular t d M -> M \in unitmx ->
  fits ty n -> (n = 0%N -> t = Upper -> ty <> U32) ->
  holds_mx_on m A (stored t d) M -> holds_mx m B N -> ext0 X = n -> ext1 X = r -> mwritable X -> allocated m (mcells X) ->
  disjoint (mcells_on A (stored t d)) (mcells X) -> disjoint_or_aligned_m B X ->
  succeeds (triangular_matrix_matrix_left_solve ty A t d B X) m (fun _ m' =>
    holds_mx m' X (invmx M *m N) /\ changes_only m m' (mcells X)).
Proof.
move=> T U F Z HA HB EX0 EX1 WX AX D1 D2. have [E0 [E1 _]] := HA; have [F0 [F1 _]] := HB.
have [u [m' [Hr [[f [H S]] Ch]]]] := C41_trsm_left_ring L (eq_ind_r (fits ty) F E0) (fun h => Z (etrans (esym E0) h)) (etrans E0 (esym E1)) (etrans F0 (esym E0)) (etrans EX0 (esym E0)) (etrans EX1 (esym F1))
  (holds_on_nf HA) (holds_nf HB) WX AX D1 D2 (eq_ind_r (fun k => div_ok div d k (nf M)) (proj1 (div_unit T U)) E0).
exists u, m'; split=> //; split=> //. apply: (nf_holds_on EX0 EX1 H) => i j _.
have -> : f i j = (\matrix_(i, j) f i j : 'M[R]_(n, r)) i j by rewrite mxE.
congr (fun_of_matrix _ i j). rewrite -[LHS](mulKmx U). congr (_ *m _).
apply/matrixP => k l. have Lk : (k < ext0 X)%coq_nat by rewrite EX0; apply/ltP.
have Ll : (l < ext1 X)%coq_nat by rewrite EX1; apply/ltP.
rewrite -(nfE N) -(S k l Lk Ll) E0 bigsumE mxE. by apply: eq_bigr => h _; rewrite /= tri_ofE // mxE.
Qed.

Lemma trsm_right_mx ty (m : mem O) A t d B X n r (M : 'M[R]_n) (N : 'M[R]_(r, n)) : triangular t d M -> M \in unitmx ->
  (t = Lower -> fits (make_signed ty) n) ->
  holds_mx_on m A (stored t d) M -> holds_mx m B N -> ext0 X = r -> ext1 X = n -> mwritable X -> allocated m (mcells X) ->
  disjoint (mcells_on A (stored t d)) (mcells X) -> disjoint_or_aligned_m B X ->
  succeeds (triangular_matrix_matrix_right_solve ty A t d B X) m (fun _ m' =>
    holds_mx m' X (N *m invmx M) /\ changes_only m m' (mcells X)).
Proof.
move=> T U F HA HB EX0 EX1 WX AX D1 D2. have [E0 [E1 _]] := HA; have [F0 [F1 _]] := HB.
have [u [m' [Hr [[f [H S]] Ch]]]] := C42_trsm_right_ring L (eq_ind_r (fun k => t = Lower -> fits (make_signed ty) k) F E0) (etrans E0 (esym E1)) (etrans F1 (esym E0)) (etrans EX1 (esym E0)) (etrans EX0 (esym F0))
  (holds_on_nf HA) (holds_nf HB) WX AX D1 D2 (eq_ind_r (fun k => div_ok_r div d k (nf M)) (proj2 (div_unit T U)) E0).
exists u, m'; split=> //; split=> //. apply: (nf_holds_on EX0 EX1 H) => i j _.
have -> : f i j = (\matrix_(i, j) f i j : 'M[R]_(r, n)) i j by rewrite mxE.
congr (fun_of_matrix _ i j). rewrite -[LHS](mulmxK U). congr (_ *m _).
apply/matrixP => k l. have Lk : (k < ext0 X)%coq_nat by rewrite EX0; apply/ltP.
have Ll : (l < ext1 X)%coq_nat by rewrite EX1; apply/ltP.
rewrite -(nfE N) -(S k l Lk Ll) E0 bigsumE mxE. by apply: eq_bigr => h _; rewrite /= tri_ofE // mxE.
Qed.

(** * Compositions *)
Lemma unit_triangular t n (M : 'M[R]_n) : triangular t ImplicitUnit M -> M \in unitmx.
Proof.
move=> T. rewrite unitmxE (triangular_det T). have [_ H1] := T.
by rewrite big1 ?unitr1 // => i _; apply: H1.
Qed.
Lemma invmx_mul n (A B : 'M[R]_n) : A \in unitmx -> B \in unitmx -> invmx (A *m B) = invmx B *m invmx A.
Proof.
move=> UA UB. have U : A *m B \in unitmx by rewrite unitmx_mul UA.
apply: (can_inj (mulKmx U)). rewrite mulmxV // mulmxA -[A *m B *m _]mulmxA mulmxV // mulmx1 mulmxV //.
Qed.
Lemma aligned_refl (X : mat O) : disjoint_or_aligned_m X X.
Proof. by right=> i j. Qed.

Lemma lu_solve ty (m : mem O) A B X n r (P Q : 'M[R]_n) (N : 'M[R]_(n, r)) :
  triangular Lower ImplicitUnit P -> triangular Upper Explicit Q -> Q \in unitmx ->
  fits ty n -> (n = 0%N -> ty <> U32) ->
  holds_mx_on m A (stored Lower ImplicitUnit) P -> holds_mx_on m A (stored Upper Explicit) Q ->
  holds_mx m B N -> ext0 X = n -> ext1 X = r -> mwritable X -> allocated m (mcells X) ->
  disjoint (mcells A) (mcells X) -> disjoint_or_aligned_m B X ->
  succeeds (bind (triangular_matrix_matrix_left_solve ty A Lower ImplicitUnit B X)
    (fun _ => triangular_matrix_matrix_left_solve ty A Upper Explicit X X)) m (fun _ m' =>
    holds_mx m' X (invmx (P *m Q) *m N) /\ changes_only m m' (mcells X)).
Proof.
move=> TP TQ UQ F Z HP HQ HB E0 E1 WX AX D D2.
have UP := unit_triangular TP.
have sub t d a : mcells_on A (stored t d) a -> mcells A a by move=> [i [j [? [? [_ ?]]]]]; exists i, j; do !split.
apply: wp_bind. apply: wp_conseq.
  apply: (trsm_left_mx TP UP F _ HP HB E0 E1 WX AX _ D2) => // a Ha; exact: D (sub _ _ _ Ha).
move=> _ m1 [HX C1].
have D' : disjoint (mcells_on A (stored Upper Explicit)) (mcells X) by move=> a Ha; exact: D (sub _ _ _ Ha).
apply: wp_conseq.
  apply: (trsm_left_mx TQ UQ F (fun h _ => Z h) (holds_on_frame HQ C1 D') HX E0 E1 WX (holds_alloc HX) D' (aligned_refl X)).
move=> _ m2 [HX2 C2]. split; last exact: changes_only_trans C1 C2.
by rewrite invmx_mul // -mulmxA.
Qed.

Lemma transposed_mx fixp (m : mem O) A At (S : nat -> nat -> Prop) p q (M : 'M[R]_(p, q)) :
  transposed fixp A = Some At -> layout_ok (mlay A) (ext0 A) (ext1 A) ->
  holds_mx_on m A S M -> holds_mx_on m At (fun j i => S i j) M^T.
Proof.
move=> H Ok HA. have [E0 [E1 _]] := HA. have [F0 [F1 _]] := C03_transposed_shape _ _ _ _ H.
refine (nf_holds_on (etrans F0 E1) (etrans F1 E0) (C03_transposed_reads _ _ _ _ _ _ _ H Ok (holds_on_nf HA)) _).
by move=> i j _; rewrite mxE nfE.
Qed.
Lemma transposed_mcells fixp (A At : mat O) S S' :
  transposed fixp A = Some At -> layout_ok (mlay A) (ext0 A) (ext1 A) ->
  disjoint (mcells A) S' -> disjoint (mcells_on At S) S'.
Proof.
move=> H Ok D a [i [j [Hi [Hj [_ Ea]]]]]. have [F0 [F1 _]] := C03_transposed_shape _ _ _ _ H.
rewrite F0 in Hi. rewrite F1 in Hj. apply: D. exists j, i. do !split=> //.
by rewrite Ea (C03_transposed_cells _ _ _ _ _ _ H Ok).
Qed.

(** L L^T X = B, given the lower triangle of L. *)
Lemma cholesky_solve fixp ty (m : mem O) A At B X n r (P : 'M[R]_n) (N : 'M[R]_(n, r)) :
  triangular Lower Explicit P -> P \in unitmx ->
  fits ty n -> (n = 0%N -> ty <> U32) ->
  transposed fixp A = Some At -> layout_ok (mlay A) (ext0 A) (ext1 A) ->
  holds_mx_on m A (stored Lower Explicit) P ->
  holds_mx m B N -> ext0 X = n -> ext1 X = r -> mwritable X -> allocated m (mcells X) ->
  disjoint (mcells A) (mcells X) -> disjoint_or_aligned_m B X ->
  succeeds (bind (triangular_matrix_matrix_left_solve ty A Lower Explicit B X)
    (fun _ => triangular_matrix_matrix_left_solve ty At Upper Explicit X X)) m (fun _ m' =>
    holds_mx m' X (invmx (P *m P^T) *m N) /\ changes_only m m' (mcells X)).
Proof.
move=> TP UP F Z Ht Ok HP HB E0 E1 WX AX D D2.
have sub t d a : mcells_on A (stored t d) a -> mcells A a by move=> [i [j [? [? [_ ?]]]]]; exists i, j; do !split.
have D1 : disjoint (mcells_on A (stored Lower Explicit)) (mcells X) by move=> a Ha; exact: D (sub _ _ _ Ha).
apply: wp_bind. apply: wp_conseq.
  by apply: (trsm_left_mx TP UP F _ HP HB E0 E1 WX AX _ D2).
move=> _ m1 [HX C1].
have TQ : triangular Upper Explicit P^T.
  split=> // i j Nt. rewrite mxE. have [H0 _] := TP. exact: H0.
have UQ : P^T \in unitmx by rewrite unitmx_tr.
have D3 : disjoint (mcells_on At (stored Upper Explicit)) (mcells X) by apply: transposed_mcells Ht Ok D.
have HQ : holds_mx_on m1 At (stored Upper Explicit) P^T.
  have [F0 [F1 H]] := transposed_mx fixp Ht Ok (holds_on_frame HP C1 D1). do 2 split=> //.
  by move=> i j [HS _]; apply: H; split.
apply: wp_conseq.
  apply: (trsm_left_mx TQ UQ F (fun h _ => Z h) HQ HX E0 E1 WX (holds_alloc HX) D3 (aligned_refl X)).
move=> _ m2 [HX2 C2]. split; last exact: changes_only_trans C1 C2.
by rewrite invmx_mul // -mulmxA.
Qed.
End Mx.

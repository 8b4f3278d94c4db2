(** Proofs for C100 (after PfMx.v). *)
From mathcomp Require Import all_ssreflect all_algebra.
From Coq Require Import ZArith.
From Verif Require Import Mem Scalar View Spec SpecMx SpecMxH Idx Wp Blas2 Blas3 PfBlas2 PfBlas3.
Set Implicit Arguments.
Local Open Scope ring_scope.
Import GRing.Theory.

Section Mx.
Variables (R : comUnitRingType) (K : conjugation R).
Notation O := (conj_ring_ops K).

Lemma cring_ring : ring_laws O.
Proof.
split=> //=; first split=> /=.
- exact: addrA. - exact: addrC. - exact: add0r. - exact: mulrDr. - exact: mulrDl. - exact: mulrA.
- exact: mul1r. - exact: mulr1. - exact: mul0r. - exact: mulr0. - by move=> x y; rewrite subrK.
Qed.
Lemma cring_comm : mul_commutes O. Proof. exact: mulrC. Qed.
Lemma cring_conj : conj_laws O.
Proof.
split=> /=; [exact: cj_twice|move=> x y; exact: rmorphD|by move=> x y; rewrite rmorphM mulrC|exact: real_part_self|exact: real_part_fix].
Qed.

(** Functions on numbers from matrices. *)
Definition nf {p q} (M : 'M[R]_(p, q)) (i j : nat) : O :=
  match insub i, insub j with Some i', Some j' => M i' j' | _, _ => 0 end.
Definition nv {n} (v : 'cV[R]_n) (i : nat) : O := nf v i 0.
Lemma nfE p q (M : 'M[R]_(p, q)) (i : 'I_p) (j : 'I_q) : nf M i j = M i j.
Proof. by rewrite /nf !valK. Qed.
Lemma nvE n (v : 'cV[R]_n) (i : 'I_n) : nv v i = v i 0.
Proof. exact: (nfE v i (0 : 'I_1)). Qed.

Lemma sum_fromE (s : O) n (f : nat -> O) : sum_from s 0 n f = s + \sum_(k < n) f k.
Proof.
rewrite /sum_from. elim: n => [|n IH]; first by rewrite big_ord0 addr0.
by rewrite List.seq_S List.fold_left_app /= big_ord_recr /= addrA -IH.
Qed.
Lemma bigsumE n (f : nat -> O) : bigsum n f = \sum_(k < n) f k.
Proof. by rewrite /bigsum sum_fromE add0r. Qed.

Lemma holds_on_nf m A P p q (M : 'M[R]_(p, q)) : has_mx_on K m A P M -> mat_holds_on m A P (nf M).
Proof.
move=> [E0 [E1 H]] i j /ltP Hi /ltP Hj HP. rewrite E0 in Hi. rewrite E1 in Hj.
have [c [Hc Hr]] := H (Ordinal Hi) (Ordinal Hj) HP. exists c; split=> //.
by rewrite Hr -(nfE M (Ordinal Hi) (Ordinal Hj)).
Qed.
Lemma holds_nf m A p q (M : 'M[R]_(p, q)) : has_mx K m A M -> mat_holds m A (nf M).
Proof. exact: holds_on_nf. Qed.
Lemma nf_holds_on (m : mem O) (A : mat O) P p q (M : 'M[R]_(p, q)) (f : nat -> nat -> O) : ext0 A = p -> ext1 A = q -> mat_holds_on m A P f ->
  (forall (i : 'I_p) (j : 'I_q), P i j -> f i j = M i j) -> has_mx_on K m A P M.
Proof.
move=> E0 E1 H E; do 2 split=> //. move=> i j HP.
have Li : (i < ext0 A)%coq_nat by rewrite E0; apply/ltP.
have Lj : (j < ext1 A)%coq_nat by rewrite E1; apply/ltP.
have [c [Hc Hr]] := H i j Li Lj HP. by exists c; rewrite Hr E.
Qed.
Lemma holds_nv m x n (v : 'cV[R]_n) : has_cv K m x v -> vec_holds m x (nv v).
Proof.
move=> [E H] i /ltP Hi. rewrite E in Hi. have [c [Hc Hr]] := H (Ordinal Hi).
exists c; split=> //. by rewrite Hr -(nvE v (Ordinal Hi)).
Qed.
Lemma nv_holds (m : mem O) (x : vec O) n (v : 'cV[R]_n) (f : nat -> O) : vext x = n -> vec_holds m x f -> (forall i : 'I_n, f i = v i 0) -> has_cv K m x v.
Proof.
move=> E H Ev; split=> // i. have Li : (i < vext x)%coq_nat by rewrite E; apply/ltP.
have [c [Hc Hr]] := H i Li. by exists c; rewrite Hr Ev.
Qed.

Lemma in_triP t i j : reflect (in_tri t i j) (in_tri_b t i j).
Proof. case: t => /=; apply: (iffP idP); by [move/Nat.leb_le | move=> H; apply/Nat.leb_le]. Qed.
Lemma tri_ofE t d n (M : 'M[R]_n) (i j : 'I_n) : triangular t d M -> tri_of (O := O) t d (nf M) i j = M i j.
Proof.
move=> [H0 H1]. rewrite /tri_of. case: Nat.eqb_spec => [/ord_inj ->|Ne].
  by case: d H1 => [_|/(_ erefl) ->]; rewrite ?nfE.
case: in_triP => [_|N]; first exact: nfE. by rewrite H0.
Qed.
Lemma sym_ofE t n (M : 'M[R]_n) (i j : 'I_n) : symmetric_mx M -> sym_of (O := O) t (nf M) i j = M i j.
Proof. move=> H. rewrite /sym_of. case: in_triP => _; rewrite nfE // -[in LHS]H mxE //. Qed.

Lemma adjE p q (M : 'M[R]_(p, q)) i j : adjoint K M i j = K (M j i).
Proof. by rewrite !mxE. Qed.
Lemma herm_diag n (M : 'M[R]_n) i : hermitian_mx K M -> K (M i i) = M i i.
Proof. by move=> H; rewrite -[in RHS]H adjE. Qed.
Lemma herm_ofE t n (M : 'M[R]_n) (i j : 'I_n) : hermitian_mx K M -> herm_of (O := O) t (nf M) i j = M i j.
Proof.
move=> H. rewrite /herm_of. case: Nat.eqb_spec => [/ord_inj ->|Ne].
  rewrite nfE /=. apply: real_part_fix. exact: herm_diag.
case: in_triP => _; rewrite nfE // -[in RHS]H adjE //.
Qed.

Lemma triangular_det t d n (M : 'M[R]_n) : triangular t d M -> \det M = \prod_i M i i.
Proof.
case: t => [] [H0 _].
  apply: det_trig. apply/is_trig_mxP => i j L. apply: H0 => /= /leP. by rewrite leqNgt L.
rewrite -det_tr det_trig; first by apply: eq_bigr => i _; rewrite mxE.
apply/is_trig_mxP => i j L. rewrite mxE. apply: H0 => /= /leP. by rewrite leqNgt L.
Qed.
Lemma triangular_unit t d n (M : 'M[R]_n) i : triangular t d M -> M \in unitmx -> M i i \is a GRing.unit.
Proof.
move=> T. rewrite unitmxE (triangular_det T) (bigD1 i) //= unitrM => /andP[]. by [].
Qed.
Lemma div_unit t d n (M : 'M[R]_n) : triangular t d M -> M \in unitmx ->
  div_ok (O := O) div d n (nf M) /\ div_ok_r (O := O) div d n (nf M).
Proof.
move=> T U. split=> _ i s /ltP L; rewrite -[i]/(nat_of_ord (Ordinal L)) nfE /=.
  by rewrite mulrC divrK // (triangular_unit _ T).
by rewrite divrK // (triangular_unit _ T).
Qed.
End Mx.
Arguments nf_holds_on {R K m A P p q M f}.
Arguments nv_holds {R K m x n v f}.
Arguments nf {R K p q}.
Arguments nv {R K n}.
Arguments nfE {R K p q}.
Arguments nvE {R K n}.

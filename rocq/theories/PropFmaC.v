(** C101: the error bounds of C71 when the compiler may contract multiplications and additions of the parts of complex
    numbers (fused multiply-add), for every binary format. *)
From Coq Require Import List Arith ZArith Reals Lia Lra Bool.
From Flocq Require Import Core.Core IEEE754.BinarySingleNaN.
From Verif Require Import Mem Scalar View Spec SpecR SpecF SpecC SpecC2 SpecRel Idx Norm Ieee Blas1 Blas2 Blas3 Wp Fma SpecFma Trace SpecTrace
  FmaC SpecFmaC PfFmaC PfFmaCOps PfFmaCTri PfFmaCTr Inst PropFloat PropComplex.
Import ListNotations.
Local Open Scope nat_scope.

(** Used below. *)
Notation FC := (fma_cx_ops 53 1024 prec53 emax1024).
Definition cfma_mem : mem FC := (* test data *)
  mem_of (map cexactly [cl (fl 1 (-1)) (fl 1 (-54)); cl (fl 3 0) (fl 7 2); cl (fl 5 (-60)) (fl 3 (-3)); cl (fl 1 0) (fl 1 0); cl (fl 1 0) (fl 1 (-54)); cl (fl 1 (-54)) (fl 3 0); cl (fl 7 2) (fl 5 (-1)); cl (fl 3 (-3)) (fl 0 0); cl (fl 1 0) (fl 0 0); cl (fl 1 (-54)) (fl 7 0); cl (fl 3 0) (fl 1 30); cl (fl 5 (-1)) (fl 1 1); cl (fl 0 0) (fl 9 0); cl (fl 0 0) (fl 1 (-1)); cl (fl 7 0) (fl 3 0); cl (fl 1 30) (fl 5 (-60)); cl (fl 1 1) (fl 1 0); cl (fl 9 0) (fl 1 0)]).

(** * The sets of possible values contain the results of every contraction chosen place by place, hence also of arithmetic
    without contraction; so, by C86, do the memories and results of all algorithms without division.  [inf] is what a
    product becomes whose parts are both NaN. *)
Theorem C101_traced : forall prec emax (Hp : Prec_gt_0 prec) (He : Prec_lt_emax prec emax) fuse inf,
  (forall x y, is_finite (fst (inf x y)) = false /\ is_finite (snd (inf x y)) = false) ->
  respects (O1 := traced_cx_ops prec emax Hp He fuse inf) (O2 := fma_cx_ops prec emax Hp He) (@may_be_ctraced prec emax Hp He fuse).
Proof. exact ctraced_respects. Qed.
Print Assumptions C101_traced.
(** Hence, for example, dotc compiled with such contraction is accurate. *)
Theorem C101_dotc_traced : forall prec emax (Hp : Prec_gt_0 prec) (He : Prec_lt_emax prec emax) fuse inf,
  (forall x y, is_finite (fst (inf x y)) = false /\ is_finite (snd (inf x y)) = false) ->
  forall (m : mem (traced_cx_ops prec emax Hp He fuse inf)) fix_nc x y (f g : nat -> binary_float prec emax * binary_float prec emax) f' g' init init',
  vext x = vext y -> vec_holds m x f' -> vec_holds m y g' ->
  (forall i, i < vext x -> cinput (f' i) (f i) /\ cinput (g' i) (g i)) -> cinput init' init ->
  succeeds (dotc fix_nc false x y init') m (fun r m' =>
    caccurate (vext x + 2) (vext x) init (fun k => conj_of (f k)) g (cvalue r) /\ m' = m).
Proof. exact dotc_traced. Qed.
Print Assumptions C101_dotc_traced.
(** The real part of conj(1 + 2^-30 + i) (1 + 2^-30 - (1 + 2^-29) i) is 2^-60 if the first product of each sum is fused, 0
    without contraction. *)
Definition fuse_all : opcode -> hist -> hist -> bool * bool := fun _ _ _ => (true, false). (* test data *)
Definition fuse_none : opcode -> hist -> hist -> bool * bool := fun _ _ _ => (false, false). (* test data *)
Definition nans {fuse} (_ _ : cx (traced_ops 53 1024 prec53 emax1024 fuse)) : binary_float 53 1024 * binary_float 53 1024 := (B754_nan, B754_nan). (* test data *)
Definition cin {fuse} (n : nat) (a b : F64) : cx (traced_ops 53 1024 prec53 emax1024 fuse) := (* test data *)
  @Cx (traced_ops 53 1024 prec53 emax1024 fuse) (input n a) (input n b) false.
Definition tr_mem fuse : mem (traced_cx_ops 53 1024 prec53 emax1024 fuse nans) := (* test data *)
  mem_of [cin 0 (fl 1073741825 (-30)) (fl 1 0); cin 1 (fl 1073741825 (-30)) (fl (-536870913) (-29))].
Example C101_dotc_traced_case : forall fuse v, In (fuse, v) [(fuse_all, B2SF (fl 1 (-60))); (fuse_none, B2SF (fl 0 0))] ->
  exists r, run (dotc false false (vec_at 0 1) (vec_at 1 1) (cin 2 (fl 0 0) (fl 0 0) : traced_cx_ops 53 1024 prec53 emax1024 fuse nans)) (tr_mem fuse) = Ok r (tr_mem fuse) /\
    B2SF (fst (cvalue r)) = v /\
    caccurate 3 1 (fl 0 0, fl 0 0) (fun _ => conj_of (fl 1073741825 (-30), fl 1 0)) (fun _ => (fl 1073741825 (-30), fl (-536870913) (-29))) (cvalue r).
Proof.
  intros fuse v Hfuse.
  destruct (C101_dotc_traced 53 1024 prec53 emax1024 fuse nans (fun _ _ => Logic.conj eq_refl eq_refl) (tr_mem fuse) false (vec_at 0 1) (vec_at 1 1)
    (fun _ => (fl 1073741825 (-30), fl 1 0)) (fun _ => (fl 1073741825 (-30), fl (-536870913) (-29)))
    (fun _ => cin 0 (fl 1073741825 (-30)) (fl 1 0)) (fun _ => cin 1 (fl 1073741825 (-30)) (fl (-536870913) (-29))) (fl 0 0, fl 0 0) (cin 2 (fl 0 0) (fl 0 0)))
    as (r & m' & Er & Hr & ->); [unfold tr_mem; concrete..|unfold tr_mem; concrete|repeat split|repeat split|].
  exists r. split; [exact Er|]. split; [|exact Hr].
  destruct Hfuse as [K|[K|[]]]; injection K; clear K; intros <- <-.
  all: pose proof (f_equal (fun o => match o with Ok r _ => Some (B2SF (fst (cvalue r))) | _ => None end) Er) as K.
  - enough (Some (B2SF (fst (cvalue r))) = Some (B2SF (fl 1 (-60)))) as Q by (injection Q; auto).
    etransitivity; [symmetry; exact K|]. vm_compute; reflexivity.
  - enough (Some (B2SF (fst (cvalue r))) = Some (B2SF (fl 0 0))) as Q by (injection Q; auto).
    etransitivity; [symmetry; exact K|]. vm_compute; reflexivity.
Qed.

(** * Error bounds whatever the compiler contracts *)
(** init + sum x_i y_i *)
Theorem C101_dot : forall prec emax (Hp : Prec_gt_0 prec) (He : Prec_lt_emax prec emax) (m : mem (fma_cx_ops prec emax Hp He)) x y (f : nat -> binary_float prec emax * binary_float prec emax) (g : nat -> binary_float prec emax * binary_float prec emax) (init : binary_float prec emax * binary_float prec emax),
  vext x = vext y -> vec_holds m x (fun i => cexactly (f i)) -> vec_holds m y (fun i => cexactly (g i)) ->
  succeeds (dot x y (cexactly init : (fma_cx_ops prec emax Hp He))) m (fun r m' => all_cvalues r (caccurate (vext x + 2) (vext x) init f g) /\ m' = m).
Proof. exact (@dot_cfma). Qed.
Print Assumptions C101_dot.

Example C101_dot_case :
  let m := cfma_mem in
  let x : vec FC := vec_at 8 2 in let y : vec FC := vec_at 10 2 in
  let f := cv [cl (fl 1 0) (fl 0 0); cl (fl 1 (-54)) (fl 7 0)] in
  let g := cv [cl (fl 3 0) (fl 1 30); cl (fl 5 (-1)) (fl 1 1)] in let init : C64 := cl (fl 1 0) (fl 1 0) in
  succeeds (dot x y (cexactly init : FC)) m (fun r m' => all_cvalues r (caccurate (vext x + 2) (vext x) init f g) /\ m' = m).
Proof.
  intros m x y f g init. apply (C101_dot 53 1024 prec53 emax1024 m x y f g init);
    unfold m, x, y, f, g, init, cfma_mem; match goal with |- fits _ _ => vm_compute; split; discriminate | _ => concrete end.
Qed.

(** init + sum conj(x_i) y_i *)
Theorem C101_dotc : forall prec emax (Hp : Prec_gt_0 prec) (He : Prec_lt_emax prec emax) (m : mem (fma_cx_ops prec emax Hp He)) fix_nc x y (f : nat -> binary_float prec emax * binary_float prec emax) (g : nat -> binary_float prec emax * binary_float prec emax) (init : binary_float prec emax * binary_float prec emax),
  vext x = vext y -> vec_holds m x (fun i => cexactly (f i)) -> vec_holds m y (fun i => cexactly (g i)) ->
  succeeds (dotc fix_nc false x y (cexactly init : (fma_cx_ops prec emax Hp He))) m (fun r m' => all_cvalues r (caccurate (vext x + 2) (vext x) init (fun k => conj_of (f k)) g) /\ m' = m).
Proof. exact (@dotc_cfma). Qed.
Print Assumptions C101_dotc.

Example C101_dotc_case :
  let m := cfma_mem in
  let fix_nc := false in let x : vec FC := vec_at 8 2 in let y : vec FC := vec_at 10 2 in
  let f := cv [cl (fl 1 0) (fl 0 0); cl (fl 1 (-54)) (fl 7 0)] in
  let g := cv [cl (fl 3 0) (fl 1 30); cl (fl 5 (-1)) (fl 1 1)] in let init : C64 := cl (fl 1 0) (fl 1 0) in
  succeeds (dotc fix_nc false x y (cexactly init : FC)) m (fun r m' => all_cvalues r (caccurate (vext x + 2) (vext x) init (fun k => conj_of (f k)) g) /\ m' = m).
Proof.
  intros m fix_nc x y f g init. apply (C101_dotc 53 1024 prec53 emax1024 m fix_nc x y f g init);
    unfold m, fix_nc, x, y, f, g, init, cfma_mem; match goal with |- fits _ _ => vm_compute; split; discriminate | _ => concrete end.
Qed.

(** y = A x *)
Theorem C101_gemv : forall prec emax (Hp : Prec_gt_0 prec) (He : Prec_lt_emax prec emax) (m : mem (fma_cx_ops prec emax Hp He)) A x y (a : nat -> nat -> binary_float prec emax * binary_float prec emax) (f : nat -> binary_float prec emax * binary_float prec emax),
  vext x = ext1 A -> vext y = ext0 A -> mat_holds m A (fun i j => cexactly (a i j)) -> vec_holds m x (fun i => cexactly (f i)) -> vwritable y ->
  allocated m (vcells y) -> disjoint (mcells A) (vcells y) -> disjoint (vcells x) (vcells y) ->
  succeeds (matrix_vector_product A x y) m (fun _ m' =>
    (exists r, vec_holds m' y r /\ forall i, i < vext y -> all_cvalues (r i) (caccurate (ext1 A + 1) (ext1 A) czero (a i) f)) /\
    changes_only m m' (vcells y)).
Proof. exact (@gemv_cfma). Qed.
Print Assumptions C101_gemv.

Example C101_gemv_case :
  let m := cfma_mem in
  let A : mat FC := row_major 0 2 2 in let x : vec FC := vec_at 8 2 in let y : vec FC := vec_at 12 2 in
  let a := cm [[cl (fl 1 (-1)) (fl 1 (-54)); cl (fl 3 0) (fl 7 2)]; [cl (fl 5 (-60)) (fl 3 (-3)); cl (fl 1 0) (fl 1 0)]] in
  let f := cv [cl (fl 1 0) (fl 0 0); cl (fl 1 (-54)) (fl 7 0)] in
  succeeds (matrix_vector_product A x y) m (fun _ m' =>
    (exists r, vec_holds m' y r /\ forall i, i < vext y -> all_cvalues (r i) (caccurate (ext1 A + 1) (ext1 A) czero (a i) f)) /\
    changes_only m m' (vcells y)).
Proof.
  intros m A x y a f. apply (C101_gemv 53 1024 prec53 emax1024 m A x y a f);
    unfold m, A, x, y, a, f, cfma_mem; match goal with |- fits _ _ => vm_compute; split; discriminate | _ => concrete end.
Qed.

(** z = y + A x *)
Theorem C101_gemv_upd : forall prec emax (Hp : Prec_gt_0 prec) (He : Prec_lt_emax prec emax) (m : mem (fma_cx_ops prec emax Hp He)) A x y z (a : nat -> nat -> binary_float prec emax * binary_float prec emax) (f : nat -> binary_float prec emax * binary_float prec emax) (g : nat -> binary_float prec emax * binary_float prec emax),
  vext x = ext1 A -> vext y = ext0 A -> vext z = ext0 A -> mat_holds m A (fun i j => cexactly (a i j)) -> vec_holds m x (fun i => cexactly (f i)) -> vec_holds m y (fun i => cexactly (g i)) ->
  vwritable z -> allocated m (vcells z) -> disjoint (mcells A) (vcells z) -> disjoint (vcells x) (vcells z) ->
  disjoint_or_aligned_v y z ->
  succeeds (matrix_vector_product_upd A x y z) m (fun _ m' =>
    (exists r, vec_holds m' z r /\ forall i, i < vext z -> all_cvalues (r i) (caccurate (ext1 A + 2) (ext1 A) (g i) (a i) f)) /\
    changes_only m m' (vcells z)).
Proof. exact (@gemv_upd_cfma). Qed.
Print Assumptions C101_gemv_upd.

Example C101_gemv_upd_case :
  let m := cfma_mem in
  let A : mat FC := row_major 0 2 2 in let x : vec FC := vec_at 8 2 in let y : vec FC := vec_at 10 2 in
  let z : vec FC := vec_at 12 2 in
  let a := cm [[cl (fl 1 (-1)) (fl 1 (-54)); cl (fl 3 0) (fl 7 2)]; [cl (fl 5 (-60)) (fl 3 (-3)); cl (fl 1 0) (fl 1 0)]] in
  let f := cv [cl (fl 1 0) (fl 0 0); cl (fl 1 (-54)) (fl 7 0)] in
  let g := cv [cl (fl 3 0) (fl 1 30); cl (fl 5 (-1)) (fl 1 1)] in
  succeeds (matrix_vector_product_upd A x y z) m (fun _ m' =>
    (exists r, vec_holds m' z r /\ forall i, i < vext z -> all_cvalues (r i) (caccurate (ext1 A + 2) (ext1 A) (g i) (a i) f)) /\
    changes_only m m' (vcells z)).
Proof.
  intros m A x y z a f g. apply (C101_gemv_upd 53 1024 prec53 emax1024 m A x y z a f g);
    unfold m, A, x, y, z, a, f, g, cfma_mem; match goal with |- fits _ _ => vm_compute; split; discriminate | _ => concrete end.
Qed.

(** C = A B *)
Theorem C101_gemm : forall prec emax (Hp : Prec_gt_0 prec) (He : Prec_lt_emax prec emax) (m : mem (fma_cx_ops prec emax Hp He)) A B C0 (a : nat -> nat -> binary_float prec emax * binary_float prec emax) (b : nat -> nat -> binary_float prec emax * binary_float prec emax),
  ext0 C0 = ext0 A -> ext1 A = ext0 B -> ext1 C0 = ext1 B -> mat_holds m A (fun i j => cexactly (a i j)) -> mat_holds m B (fun i j => cexactly (b i j)) -> mwritable C0 ->
  allocated m (mcells C0) -> disjoint (mcells A) (mcells C0) -> disjoint (mcells B) (mcells C0) ->
  succeeds (matrix_product A B C0) m (fun _ m' =>
    (exists r, mat_holds m' C0 r /\ forall i j, i < ext0 C0 -> j < ext1 C0 ->
       all_cvalues (r i j) (caccurate (ext1 A + 1) (ext1 A) czero (a i) (fun k => b k j))) /\
    changes_only m m' (mcells C0)).
Proof. exact (@gemm_cfma). Qed.
Print Assumptions C101_gemm.

Example C101_gemm_case :
  let m := cfma_mem in
  let A : mat FC := row_major 0 2 2 in let B : mat FC := row_major 4 2 2 in let C0 : mat FC := row_major 14 2 2 in
  let a := cm [[cl (fl 1 (-1)) (fl 1 (-54)); cl (fl 3 0) (fl 7 2)]; [cl (fl 5 (-60)) (fl 3 (-3)); cl (fl 1 0) (fl 1 0)]] in
  let b := cm [[cl (fl 1 0) (fl 1 (-54)); cl (fl 1 (-54)) (fl 3 0)]; [cl (fl 7 2) (fl 5 (-1)); cl (fl 3 (-3)) (fl 0 0)]] in
  succeeds (matrix_product A B C0) m (fun _ m' =>
    (exists r, mat_holds m' C0 r /\ forall i j, i < ext0 C0 -> j < ext1 C0 ->
       all_cvalues (r i j) (caccurate (ext1 A + 1) (ext1 A) czero (a i) (fun k => b k j))) /\
    changes_only m m' (mcells C0)).
Proof.
  intros m A B C0 a b. apply (C101_gemm 53 1024 prec53 emax1024 m A B C0 a b);
    unfold m, A, B, C0, a, b, cfma_mem; match goal with |- fits _ _ => vm_compute; split; discriminate | _ => concrete end.
Qed.

(** C = E + A B *)
Theorem C101_gemm_upd : forall prec emax (Hp : Prec_gt_0 prec) (He : Prec_lt_emax prec emax) (m : mem (fma_cx_ops prec emax Hp He)) A B E C0 (a : nat -> nat -> binary_float prec emax * binary_float prec emax) (b : nat -> nat -> binary_float prec emax * binary_float prec emax) (e : nat -> nat -> binary_float prec emax * binary_float prec emax),
  ext0 C0 = ext0 A -> ext1 A = ext0 B -> ext1 C0 = ext1 B -> ext0 E = ext0 C0 -> ext1 E = ext1 C0 ->
  mat_holds m A (fun i j => cexactly (a i j)) -> mat_holds m B (fun i j => cexactly (b i j)) -> mat_holds m E (fun i j => cexactly (e i j)) -> mwritable C0 -> allocated m (mcells C0) ->
  disjoint (mcells A) (mcells C0) -> disjoint (mcells B) (mcells C0) -> disjoint_or_aligned_m E C0 ->
  succeeds (matrix_product_upd A B E C0) m (fun _ m' =>
    (exists r, mat_holds m' C0 r /\ forall i j, i < ext0 C0 -> j < ext1 C0 ->
       all_cvalues (r i j) (caccurate (ext1 A + 2) (ext1 A) (e i j) (a i) (fun k => b k j))) /\
    changes_only m m' (mcells C0)).
Proof. exact (@gemm_upd_cfma). Qed.
Print Assumptions C101_gemm_upd.

Example C101_gemm_upd_case :
  let m := cfma_mem in
  let A : mat FC := row_major 0 2 2 in let B : mat FC := row_major 4 2 2 in let E : mat FC := row_major 14 2 2 in
  let C0 : mat FC := row_major 14 2 2 in
  let a := cm [[cl (fl 1 (-1)) (fl 1 (-54)); cl (fl 3 0) (fl 7 2)]; [cl (fl 5 (-60)) (fl 3 (-3)); cl (fl 1 0) (fl 1 0)]] in
  let b := cm [[cl (fl 1 0) (fl 1 (-54)); cl (fl 1 (-54)) (fl 3 0)]; [cl (fl 7 2) (fl 5 (-1)); cl (fl 3 (-3)) (fl 0 0)]] in
  let e := cm [[cl (fl 7 0) (fl 3 0); cl (fl 1 30) (fl 5 (-60))]; [cl (fl 1 1) (fl 1 0); cl (fl 9 0) (fl 1 0)]] in
  succeeds (matrix_product_upd A B E C0) m (fun _ m' =>
    (exists r, mat_holds m' C0 r /\ forall i j, i < ext0 C0 -> j < ext1 C0 ->
       all_cvalues (r i j) (caccurate (ext1 A + 2) (ext1 A) (e i j) (a i) (fun k => b k j))) /\
    changes_only m m' (mcells C0)).
Proof.
  intros m A B E C0 a b e. apply (C101_gemm_upd 53 1024 prec53 emax1024 m A B E C0 a b e);
    unfold m, A, B, E, C0, a, b, e, cfma_mem; match goal with |- fits _ _ => vm_compute; split; discriminate | _ => concrete end.
Qed.

(** y = A x, A Hermitian *)
Theorem C101_hemv : forall prec emax (Hp : Prec_gt_0 prec) (He : Prec_lt_emax prec emax) (m : mem (fma_cx_ops prec emax Hp He)) A t x y (a : nat -> nat -> binary_float prec emax * binary_float prec emax) (f : nat -> binary_float prec emax * binary_float prec emax),
  ext0 A = ext1 A -> vext x = ext1 A -> vext y = ext0 A -> mat_holds_on m A (in_tri t) (fun i j => cexactly (a i j)) -> vec_holds m x (fun i => cexactly (f i)) ->
  vwritable y -> allocated m (vcells y) -> disjoint (mcells_on A (in_tri t)) (vcells y) ->
  disjoint (vcells x) (vcells y) ->
  succeeds (hermitian_matrix_vector_product A t x y) m (fun _ m' =>
    (exists r, vec_holds m' y r /\ forall i, i < vext y -> all_cvalues (r i) (caccurate (ext1 A + 1) (ext1 A) czero (cherm_of t a i) f)) /\
    changes_only m m' (vcells y)).
Proof. exact (@hemv_cfma). Qed.
Print Assumptions C101_hemv.

Example C101_hemv_case :
  let m := cfma_mem in
  let A : mat FC := row_major 0 2 2 in let t := Lower in let x : vec FC := vec_at 8 2 in
  let y : vec FC := vec_at 12 2 in
  let a := cm [[cl (fl 1 (-1)) (fl 1 (-54)); cl (fl 3 0) (fl 7 2)]; [cl (fl 5 (-60)) (fl 3 (-3)); cl (fl 1 0) (fl 1 0)]] in
  let f := cv [cl (fl 1 0) (fl 0 0); cl (fl 1 (-54)) (fl 7 0)] in
  succeeds (hermitian_matrix_vector_product A t x y) m (fun _ m' =>
    (exists r, vec_holds m' y r /\ forall i, i < vext y -> all_cvalues (r i) (caccurate (ext1 A + 1) (ext1 A) czero (cherm_of t a i) f)) /\
    changes_only m m' (vcells y)).
Proof.
  intros m A t x y a f. apply (C101_hemv 53 1024 prec53 emax1024 m A t x y a f);
    unfold m, A, t, x, y, a, f, cfma_mem; match goal with |- fits _ _ => vm_compute; split; discriminate | _ => concrete end.
Qed.

(** z = y + A x, A Hermitian *)
Theorem C101_hemv_upd : forall prec emax (Hp : Prec_gt_0 prec) (He : Prec_lt_emax prec emax) (m : mem (fma_cx_ops prec emax Hp He)) A t x y z (a : nat -> nat -> binary_float prec emax * binary_float prec emax) (f : nat -> binary_float prec emax * binary_float prec emax) (g : nat -> binary_float prec emax * binary_float prec emax),
  ext0 A = ext1 A -> vext x = ext1 A -> vext y = ext0 A -> vext z = ext0 A -> mat_holds_on m A (in_tri t) (fun i j => cexactly (a i j)) ->
  vec_holds m x (fun i => cexactly (f i)) -> vec_holds m y (fun i => cexactly (g i)) -> vwritable z -> allocated m (vcells z) ->
  disjoint (mcells_on A (in_tri t)) (vcells z) -> disjoint (vcells x) (vcells z) -> disjoint_or_aligned_v y z ->
  succeeds (hermitian_matrix_vector_product_upd A t x y z) m (fun _ m' =>
    (exists r, vec_holds m' z r /\ forall i, i < vext z -> all_cvalues (r i) (caccurate (ext1 A + 2) (ext1 A) (g i) (cherm_of t a i) f)) /\
    changes_only m m' (vcells z)).
Proof. exact (@hemv_upd_cfma). Qed.
Print Assumptions C101_hemv_upd.

Example C101_hemv_upd_case :
  let m := cfma_mem in
  let A : mat FC := row_major 0 2 2 in let t := Lower in let x : vec FC := vec_at 8 2 in
  let y : vec FC := vec_at 10 2 in let z : vec FC := vec_at 12 2 in
  let a := cm [[cl (fl 1 (-1)) (fl 1 (-54)); cl (fl 3 0) (fl 7 2)]; [cl (fl 5 (-60)) (fl 3 (-3)); cl (fl 1 0) (fl 1 0)]] in
  let f := cv [cl (fl 1 0) (fl 0 0); cl (fl 1 (-54)) (fl 7 0)] in
  let g := cv [cl (fl 3 0) (fl 1 30); cl (fl 5 (-1)) (fl 1 1)] in
  succeeds (hermitian_matrix_vector_product_upd A t x y z) m (fun _ m' =>
    (exists r, vec_holds m' z r /\ forall i, i < vext z -> all_cvalues (r i) (caccurate (ext1 A + 2) (ext1 A) (g i) (cherm_of t a i) f)) /\
    changes_only m m' (vcells z)).
Proof.
  intros m A t x y z a f g. apply (C101_hemv_upd 53 1024 prec53 emax1024 m A t x y z a f g);
    unfold m, A, t, x, y, z, a, f, g, cfma_mem; match goal with |- fits _ _ => vm_compute; split; discriminate | _ => concrete end.
Qed.

(** y = A x, A complex symmetric *)
Theorem C101_symv : forall prec emax (Hp : Prec_gt_0 prec) (He : Prec_lt_emax prec emax) (m : mem (fma_cx_ops prec emax Hp He)) A t x y (a : nat -> nat -> binary_float prec emax * binary_float prec emax) (f : nat -> binary_float prec emax * binary_float prec emax),
  ext0 A = ext1 A -> vext x = ext1 A -> vext y = ext0 A -> mat_holds_on m A (in_tri t) (fun i j => cexactly (a i j)) -> vec_holds m x (fun i => cexactly (f i)) ->
  vwritable y -> allocated m (vcells y) -> disjoint (mcells_on A (in_tri t)) (vcells y) ->
  disjoint (vcells x) (vcells y) ->
  succeeds (symmetric_matrix_vector_product A t x y) m (fun _ m' =>
    (exists r, vec_holds m' y r /\ forall i, i < vext y -> all_cvalues (r i) (caccurate (ext1 A + 1) (ext1 A) czero (csym_of t a i) f)) /\
    changes_only m m' (vcells y)).
Proof. exact (@symv_cfma). Qed.
Print Assumptions C101_symv.

Example C101_symv_case :
  let m := cfma_mem in
  let A : mat FC := row_major 0 2 2 in let t := Lower in let x : vec FC := vec_at 8 2 in
  let y : vec FC := vec_at 12 2 in
  let a := cm [[cl (fl 1 (-1)) (fl 1 (-54)); cl (fl 3 0) (fl 7 2)]; [cl (fl 5 (-60)) (fl 3 (-3)); cl (fl 1 0) (fl 1 0)]] in
  let f := cv [cl (fl 1 0) (fl 0 0); cl (fl 1 (-54)) (fl 7 0)] in
  succeeds (symmetric_matrix_vector_product A t x y) m (fun _ m' =>
    (exists r, vec_holds m' y r /\ forall i, i < vext y -> all_cvalues (r i) (caccurate (ext1 A + 1) (ext1 A) czero (csym_of t a i) f)) /\
    changes_only m m' (vcells y)).
Proof.
  intros m A t x y a f. apply (C101_symv 53 1024 prec53 emax1024 m A t x y a f);
    unfold m, A, t, x, y, a, f, cfma_mem; match goal with |- fits _ _ => vm_compute; split; discriminate | _ => concrete end.
Qed.

(** C = A B, A Hermitian *)
Theorem C101_hemm_left : forall prec emax (Hp : Prec_gt_0 prec) (He : Prec_lt_emax prec emax) (m : mem (fma_cx_ops prec emax Hp He)) A t B C0 (a : nat -> nat -> binary_float prec emax * binary_float prec emax) (b : nat -> nat -> binary_float prec emax * binary_float prec emax),
  ext0 A = ext1 A -> ext0 C0 = ext0 A -> ext1 A = ext0 B -> ext1 C0 = ext1 B -> mat_holds_on m A (in_tri t) (fun i j => cexactly (a i j)) ->
  mat_holds m B (fun i j => cexactly (b i j)) -> mwritable C0 -> allocated m (mcells C0) -> disjoint (mcells_on A (in_tri t)) (mcells C0) ->
  disjoint (mcells B) (mcells C0) ->
  succeeds (hermitian_matrix_product_left A t B C0) m (fun _ m' =>
    (exists r, mat_holds m' C0 r /\ forall i j, i < ext0 C0 -> j < ext1 C0 ->
       all_cvalues (r i j) (caccurate (ext1 A + 1) (ext1 A) czero (cherm_of t a i) (fun k => b k j))) /\
    changes_only m m' (mcells C0)).
Proof. exact (@hemm_left_cfma). Qed.
Print Assumptions C101_hemm_left.

Example C101_hemm_left_case :
  let m := cfma_mem in
  let A : mat FC := row_major 0 2 2 in let t := Lower in let B : mat FC := row_major 4 2 2 in
  let C0 : mat FC := row_major 14 2 2 in
  let a := cm [[cl (fl 1 (-1)) (fl 1 (-54)); cl (fl 3 0) (fl 7 2)]; [cl (fl 5 (-60)) (fl 3 (-3)); cl (fl 1 0) (fl 1 0)]] in
  let b := cm [[cl (fl 1 0) (fl 1 (-54)); cl (fl 1 (-54)) (fl 3 0)]; [cl (fl 7 2) (fl 5 (-1)); cl (fl 3 (-3)) (fl 0 0)]] in
  succeeds (hermitian_matrix_product_left A t B C0) m (fun _ m' =>
    (exists r, mat_holds m' C0 r /\ forall i j, i < ext0 C0 -> j < ext1 C0 ->
       all_cvalues (r i j) (caccurate (ext1 A + 1) (ext1 A) czero (cherm_of t a i) (fun k => b k j))) /\
    changes_only m m' (mcells C0)).
Proof.
  intros m A t B C0 a b. apply (C101_hemm_left 53 1024 prec53 emax1024 m A t B C0 a b);
    unfold m, A, t, B, C0, a, b, cfma_mem; match goal with |- fits _ _ => vm_compute; split; discriminate | _ => concrete end.
Qed.

(** A += x y^T *)
Theorem C101_ger : forall prec emax (Hp : Prec_gt_0 prec) (He : Prec_lt_emax prec emax) (m : mem (fma_cx_ops prec emax Hp He)) x y A (a : nat -> nat -> binary_float prec emax * binary_float prec emax) (f : nat -> binary_float prec emax * binary_float prec emax) (g : nat -> binary_float prec emax * binary_float prec emax),
  vext x = ext0 A -> vext y = ext1 A -> mat_holds m A (fun i j => cexactly (a i j)) -> vec_holds m x (fun i => cexactly (f i)) -> vec_holds m y (fun i => cexactly (g i)) -> mwritable A ->
  disjoint (vcells x) (mcells A) -> disjoint (vcells y) (mcells A) ->
  succeeds (matrix_rank_1_update x y A) m (fun _ m' =>
    (exists r, mat_holds m' A r /\ forall i j, i < ext0 A -> j < ext1 A ->
       all_cvalues (r i j) (caccurate 3 1 (a i j) (fun _ => f i) (fun _ => g j))) /\
    changes_only m m' (mcells A)).
Proof. exact (@ger_cfma). Qed.
Print Assumptions C101_ger.

Example C101_ger_case :
  let m := cfma_mem in
  let x : vec FC := vec_at 8 2 in let y : vec FC := vec_at 10 2 in let A : mat FC := row_major 0 2 2 in
  let a := cm [[cl (fl 1 (-1)) (fl 1 (-54)); cl (fl 3 0) (fl 7 2)]; [cl (fl 5 (-60)) (fl 3 (-3)); cl (fl 1 0) (fl 1 0)]] in
  let f := cv [cl (fl 1 0) (fl 0 0); cl (fl 1 (-54)) (fl 7 0)] in
  let g := cv [cl (fl 3 0) (fl 1 30); cl (fl 5 (-1)) (fl 1 1)] in
  succeeds (matrix_rank_1_update x y A) m (fun _ m' =>
    (exists r, mat_holds m' A r /\ forall i j, i < ext0 A -> j < ext1 A ->
       all_cvalues (r i j) (caccurate 3 1 (a i j) (fun _ => f i) (fun _ => g j))) /\
    changes_only m m' (mcells A)).
Proof.
  intros m x y A a f g. apply (C101_ger 53 1024 prec53 emax1024 m x y A a f g);
    unfold m, x, y, A, a, f, g, cfma_mem; match goal with |- fits _ _ => vm_compute; split; discriminate | _ => concrete end.
Qed.

(** A += x y^H *)
Theorem C101_gerc : forall prec emax (Hp : Prec_gt_0 prec) (He : Prec_lt_emax prec emax) (m : mem (fma_cx_ops prec emax Hp He)) fix_nc x y A (a : nat -> nat -> binary_float prec emax * binary_float prec emax) (f : nat -> binary_float prec emax * binary_float prec emax) (g : nat -> binary_float prec emax * binary_float prec emax),
  vext x = ext0 A -> vext y = ext1 A -> mat_holds m A (fun i j => cexactly (a i j)) -> vec_holds m x (fun i => cexactly (f i)) -> vec_holds m y (fun i => cexactly (g i)) -> mwritable A ->
  disjoint (vcells x) (mcells A) -> disjoint (vcells y) (mcells A) ->
  succeeds (matrix_rank_1_update_c fix_nc false x y A) m (fun _ m' =>
    (exists r, mat_holds m' A r /\ forall i j, i < ext0 A -> j < ext1 A ->
       all_cvalues (r i j) (caccurate 3 1 (a i j) (fun _ => f i) (fun _ => conj_of (g j)))) /\
    changes_only m m' (mcells A)).
Proof. exact (@gerc_cfma). Qed.
Print Assumptions C101_gerc.

Example C101_gerc_case :
  let m := cfma_mem in
  let fix_nc := false in let x : vec FC := vec_at 8 2 in let y : vec FC := vec_at 10 2 in
  let A : mat FC := row_major 0 2 2 in
  let a := cm [[cl (fl 1 (-1)) (fl 1 (-54)); cl (fl 3 0) (fl 7 2)]; [cl (fl 5 (-60)) (fl 3 (-3)); cl (fl 1 0) (fl 1 0)]] in
  let f := cv [cl (fl 1 0) (fl 0 0); cl (fl 1 (-54)) (fl 7 0)] in
  let g := cv [cl (fl 3 0) (fl 1 30); cl (fl 5 (-1)) (fl 1 1)] in
  succeeds (matrix_rank_1_update_c fix_nc false x y A) m (fun _ m' =>
    (exists r, mat_holds m' A r /\ forall i j, i < ext0 A -> j < ext1 A ->
       all_cvalues (r i j) (caccurate 3 1 (a i j) (fun _ => f i) (fun _ => conj_of (g j)))) /\
    changes_only m m' (mcells A)).
Proof.
  intros m fix_nc x y A a f g. apply (C101_gerc 53 1024 prec53 emax1024 m fix_nc x y A a f g);
    unfold m, fix_nc, x, y, A, a, f, g, cfma_mem; match goal with |- fits _ _ => vm_compute; split; discriminate | _ => concrete end.
Qed.

(** A += x x^H *)
Theorem C101_her : forall prec emax (Hp : Prec_gt_0 prec) (He : Prec_lt_emax prec emax) (m : mem (fma_cx_ops prec emax Hp He)) x A t (a : nat -> nat -> binary_float prec emax * binary_float prec emax) (f : nat -> binary_float prec emax * binary_float prec emax),
  ext0 A = ext1 A -> vext x = ext0 A -> mat_holds_on m A (in_tri t) (fun i j => cexactly (a i j)) -> vec_holds m x (fun i => cexactly (f i)) ->
  mwritable_on A (in_tri t) -> disjoint (vcells x) (mcells_on A (in_tri t)) ->
  succeeds (hermitian_matrix_rank_1_update x A t) m (fun _ m' =>
    (exists r, mat_holds_on m' A (in_tri t) r /\ forall i j, i < ext0 A -> j < ext1 A -> in_tri t i j ->
       all_cvalues (r i j) (caccurate 3 1 (cherm_of t a i j) (fun _ => f i) (fun _ => conj_of (f j)))) /\
    changes_only m m' (mcells_on A (in_tri t))).
Proof. exact (@her_cfma). Qed.
Print Assumptions C101_her.

Example C101_her_case :
  let m := cfma_mem in
  let x : vec FC := vec_at 8 2 in let A : mat FC := row_major 0 2 2 in let t := Lower in
  let a := cm [[cl (fl 1 (-1)) (fl 1 (-54)); cl (fl 3 0) (fl 7 2)]; [cl (fl 5 (-60)) (fl 3 (-3)); cl (fl 1 0) (fl 1 0)]] in
  let f := cv [cl (fl 1 0) (fl 0 0); cl (fl 1 (-54)) (fl 7 0)] in
  succeeds (hermitian_matrix_rank_1_update x A t) m (fun _ m' =>
    (exists r, mat_holds_on m' A (in_tri t) r /\ forall i j, i < ext0 A -> j < ext1 A -> in_tri t i j ->
       all_cvalues (r i j) (caccurate 3 1 (cherm_of t a i j) (fun _ => f i) (fun _ => conj_of (f j)))) /\
    changes_only m m' (mcells_on A (in_tri t))).
Proof.
  intros m x A t a f. apply (C101_her 53 1024 prec53 emax1024 m x A t a f);
    unfold m, x, A, t, a, f, cfma_mem; match goal with |- fits _ _ => vm_compute; split; discriminate | _ => concrete end.
Qed.

(** A += x y^H + y x^H *)
Theorem C101_her2 : forall prec emax (Hp : Prec_gt_0 prec) (He : Prec_lt_emax prec emax) (m : mem (fma_cx_ops prec emax Hp He)) x y A t (a : nat -> nat -> binary_float prec emax * binary_float prec emax) (f : nat -> binary_float prec emax * binary_float prec emax) (g : nat -> binary_float prec emax * binary_float prec emax),
  ext0 A = ext1 A -> vext x = ext0 A -> vext y = ext0 A -> mat_holds_on m A (in_tri t) (fun i j => cexactly (a i j)) -> vec_holds m x (fun i => cexactly (f i)) ->
  vec_holds m y (fun i => cexactly (g i)) -> mwritable_on A (in_tri t) -> disjoint (vcells x) (mcells_on A (in_tri t)) ->
  disjoint (vcells y) (mcells_on A (in_tri t)) ->
  succeeds (hermitian_matrix_rank_2_update x y A t) m (fun _ m' =>
    (exists r, mat_holds_on m' A (in_tri t) r /\ forall i j, i < ext0 A -> j < ext1 A -> in_tri t i j ->
       all_cvalues (r i j) (caccurate2 4 1 (cherm_of t a i j) (fun _ => f i) (fun _ => conj_of (g j)) (fun _ => g i) (fun _ => conj_of (f j)))) /\
    changes_only m m' (mcells_on A (in_tri t))).
Proof. exact (@her2_cfma). Qed.
Print Assumptions C101_her2.

Example C101_her2_case :
  let m := cfma_mem in
  let x : vec FC := vec_at 8 2 in let y : vec FC := vec_at 10 2 in let A : mat FC := row_major 0 2 2 in
  let t := Lower in
  let a := cm [[cl (fl 1 (-1)) (fl 1 (-54)); cl (fl 3 0) (fl 7 2)]; [cl (fl 5 (-60)) (fl 3 (-3)); cl (fl 1 0) (fl 1 0)]] in
  let f := cv [cl (fl 1 0) (fl 0 0); cl (fl 1 (-54)) (fl 7 0)] in
  let g := cv [cl (fl 3 0) (fl 1 30); cl (fl 5 (-1)) (fl 1 1)] in
  succeeds (hermitian_matrix_rank_2_update x y A t) m (fun _ m' =>
    (exists r, mat_holds_on m' A (in_tri t) r /\ forall i j, i < ext0 A -> j < ext1 A -> in_tri t i j ->
       all_cvalues (r i j) (caccurate2 4 1 (cherm_of t a i j) (fun _ => f i) (fun _ => conj_of (g j)) (fun _ => g i) (fun _ => conj_of (f j)))) /\
    changes_only m m' (mcells_on A (in_tri t))).
Proof.
  intros m x y A t a f g. apply (C101_her2 53 1024 prec53 emax1024 m x y A t a f g);
    unfold m, x, y, A, t, a, f, g, cfma_mem; match goal with |- fits _ _ => vm_compute; split; discriminate | _ => concrete end.
Qed.

(** C += A A^H *)
Theorem C101_herk : forall prec emax (Hp : Prec_gt_0 prec) (He : Prec_lt_emax prec emax) (m : mem (fma_cx_ops prec emax Hp He)) A C0 t (a : nat -> nat -> binary_float prec emax * binary_float prec emax) (c : nat -> nat -> binary_float prec emax * binary_float prec emax),
  ext0 C0 = ext1 C0 -> ext0 A = ext0 C0 -> mat_holds m A (fun i j => cexactly (a i j)) -> mat_holds_on m C0 (in_tri t) (fun i j => cexactly (c i j)) ->
  mwritable_on C0 (in_tri t) -> disjoint (mcells A) (mcells_on C0 (in_tri t)) ->
  succeeds (hermitian_matrix_rank_k_update A C0 t) m (fun _ m' =>
    (exists r, mat_holds_on m' C0 (in_tri t) r /\ forall i j, i < ext0 C0 -> j < ext1 C0 -> in_tri t i j ->
       all_cvalues (r i j) (caccurate (ext1 A + 2) (ext1 A) (cherm_of t c i j) (a i) (fun k => conj_of (a j k)))) /\
    changes_only m m' (mcells_on C0 (in_tri t))).
Proof. exact (@herk_cfma). Qed.
Print Assumptions C101_herk.

Example C101_herk_case :
  let m := cfma_mem in
  let A : mat FC := row_major 0 2 2 in let C0 : mat FC := row_major 14 2 2 in let t := Lower in
  let a := cm [[cl (fl 1 (-1)) (fl 1 (-54)); cl (fl 3 0) (fl 7 2)]; [cl (fl 5 (-60)) (fl 3 (-3)); cl (fl 1 0) (fl 1 0)]] in
  let c := cm [[cl (fl 7 0) (fl 3 0); cl (fl 1 30) (fl 5 (-60))]; [cl (fl 1 1) (fl 1 0); cl (fl 9 0) (fl 1 0)]] in
  succeeds (hermitian_matrix_rank_k_update A C0 t) m (fun _ m' =>
    (exists r, mat_holds_on m' C0 (in_tri t) r /\ forall i j, i < ext0 C0 -> j < ext1 C0 -> in_tri t i j ->
       all_cvalues (r i j) (caccurate (ext1 A + 2) (ext1 A) (cherm_of t c i j) (a i) (fun k => conj_of (a j k)))) /\
    changes_only m m' (mcells_on C0 (in_tri t))).
Proof.
  intros m A C0 t a c. apply (C101_herk 53 1024 prec53 emax1024 m A C0 t a c);
    unfold m, A, C0, t, a, c, cfma_mem; match goal with |- fits _ _ => vm_compute; split; discriminate | _ => concrete end.
Qed.

(** C += A B^H + B A^H *)
Theorem C101_her2k : forall prec emax (Hp : Prec_gt_0 prec) (He : Prec_lt_emax prec emax) (m : mem (fma_cx_ops prec emax Hp He)) A B C0 t (a : nat -> nat -> binary_float prec emax * binary_float prec emax) (b : nat -> nat -> binary_float prec emax * binary_float prec emax) (c : nat -> nat -> binary_float prec emax * binary_float prec emax),
  ext0 C0 = ext1 C0 -> ext0 A = ext0 C0 -> ext0 B = ext0 C0 -> ext1 B = ext1 A -> mat_holds m A (fun i j => cexactly (a i j)) ->
  mat_holds m B (fun i j => cexactly (b i j)) -> mat_holds_on m C0 (in_tri t) (fun i j => cexactly (c i j)) -> mwritable_on C0 (in_tri t) ->
  disjoint (mcells A) (mcells_on C0 (in_tri t)) -> disjoint (mcells B) (mcells_on C0 (in_tri t)) ->
  succeeds (hermitian_matrix_rank_2k_update A B C0 t) m (fun _ m' =>
    (exists r, mat_holds_on m' C0 (in_tri t) r /\ forall i j, i < ext0 C0 -> j < ext1 C0 -> in_tri t i j ->
       all_cvalues (r i j) (caccurate2 (ext1 A + 3) (ext1 A) (cherm_of t c i j) (a i) (fun k => conj_of (b j k)) (b i) (fun k => conj_of (a j k)))) /\
    changes_only m m' (mcells_on C0 (in_tri t))).
Proof. exact (@her2k_cfma). Qed.
Print Assumptions C101_her2k.

Example C101_her2k_case :
  let m := cfma_mem in
  let A : mat FC := row_major 0 2 2 in let B : mat FC := row_major 4 2 2 in let C0 : mat FC := row_major 14 2 2 in
  let t := Lower in
  let a := cm [[cl (fl 1 (-1)) (fl 1 (-54)); cl (fl 3 0) (fl 7 2)]; [cl (fl 5 (-60)) (fl 3 (-3)); cl (fl 1 0) (fl 1 0)]] in
  let b := cm [[cl (fl 1 0) (fl 1 (-54)); cl (fl 1 (-54)) (fl 3 0)]; [cl (fl 7 2) (fl 5 (-1)); cl (fl 3 (-3)) (fl 0 0)]] in
  let c := cm [[cl (fl 7 0) (fl 3 0); cl (fl 1 30) (fl 5 (-60))]; [cl (fl 1 1) (fl 1 0); cl (fl 9 0) (fl 1 0)]] in
  succeeds (hermitian_matrix_rank_2k_update A B C0 t) m (fun _ m' =>
    (exists r, mat_holds_on m' C0 (in_tri t) r /\ forall i j, i < ext0 C0 -> j < ext1 C0 -> in_tri t i j ->
       all_cvalues (r i j) (caccurate2 (ext1 A + 3) (ext1 A) (cherm_of t c i j) (a i) (fun k => conj_of (b j k)) (b i) (fun k => conj_of (a j k)))) /\
    changes_only m m' (mcells_on C0 (in_tri t))).
Proof.
  intros m A B C0 t a b c. apply (C101_her2k 53 1024 prec53 emax1024 m A B C0 t a b c);
    unfold m, A, B, C0, t, a, b, c, cfma_mem; match goal with |- fits _ _ => vm_compute; split; discriminate | _ => concrete end.
Qed.

(** z = y + S x *)
Theorem C101_symv_upd : forall prec emax (Hp : Prec_gt_0 prec) (He : Prec_lt_emax prec emax) (m : mem (fma_cx_ops prec emax Hp He)) A t x y z (a : nat -> nat -> binary_float prec emax * binary_float prec emax) (f : nat -> binary_float prec emax * binary_float prec emax) (g : nat -> binary_float prec emax * binary_float prec emax),
  ext0 A = ext1 A -> vext x = ext1 A -> vext y = ext0 A -> vext z = ext0 A -> mat_holds_on m A (in_tri t) (fun i j => cexactly (a i j)) ->
  vec_holds m x (fun i => cexactly (f i)) -> vec_holds m y (fun i => cexactly (g i)) -> vwritable z -> allocated m (vcells z) ->
  disjoint (mcells_on A (in_tri t)) (vcells z) -> disjoint (vcells x) (vcells z) -> disjoint_or_aligned_v y z ->
  succeeds (symmetric_matrix_vector_product_upd A t x y z) m (fun _ m' =>
    (exists r, vec_holds m' z r /\ forall i, i < vext z ->
       all_cvalues (r i) (caccurate (ext1 A + 2) (ext1 A) (g i) (fun k => csym_of t a i k) f)) /\
    changes_only m m' (vcells z)).
Proof. exact (@symv_upd_cfma). Qed.
Print Assumptions C101_symv_upd.

Example C101_symv_upd_case :
  let m := cfma_mem in
  let A : mat FC := row_major 0 2 2 in
  let t := Lower in
  let x : vec FC := vec_at 8 2 in
  let y : vec FC := vec_at 10 2 in
  let z : vec FC := vec_at 12 2 in
  let a := cm [[cl (fl 1 (-1)) (fl 1 (-54)); cl (fl 3 0) (fl 7 2)]; [cl (fl 5 (-60)) (fl 3 (-3)); cl (fl 1 0) (fl 1 0)]] in
  let f := cv [cl (fl 1 0) (fl 0 0); cl (fl 1 (-54)) (fl 7 0)] in
  let g := cv [cl (fl 3 0) (fl 1 30); cl (fl 5 (-1)) (fl 1 1)] in
  succeeds (symmetric_matrix_vector_product_upd A t x y z) m (fun _ m' =>
    (exists r, vec_holds m' z r /\ forall i, i < vext z ->
       all_cvalues (r i) (caccurate (ext1 A + 2) (ext1 A) (g i) (fun k => csym_of t a i k) f)) /\
    changes_only m m' (vcells z)).
Proof.
  intros m A t x y z a f g. apply (C101_symv_upd 53 1024 prec53 emax1024 m A t x y z a f g);
    unfold m, A, t, x, y, z, a, f, g, cfma_mem; match goal with |- fits _ _ => vm_compute; split; discriminate | _ => concrete end.
Qed.

(** C = S B *)
Theorem C101_symm_left : forall prec emax (Hp : Prec_gt_0 prec) (He : Prec_lt_emax prec emax) (m : mem (fma_cx_ops prec emax Hp He)) A t B C0 (a : nat -> nat -> binary_float prec emax * binary_float prec emax) (b : nat -> nat -> binary_float prec emax * binary_float prec emax),
  ext0 A = ext1 A -> ext0 C0 = ext0 A -> ext1 A = ext0 B -> ext1 C0 = ext1 B -> mat_holds_on m A (in_tri t) (fun i j => cexactly (a i j)) ->
  mat_holds m B (fun i j => cexactly (b i j)) -> mwritable C0 -> allocated m (mcells C0) -> disjoint (mcells_on A (in_tri t)) (mcells C0) ->
  disjoint (mcells B) (mcells C0) ->
  succeeds (symmetric_matrix_product_left A t B C0) m (fun _ m' =>
    (exists r, mat_holds m' C0 r /\ forall i j, i < ext0 C0 -> j < ext1 C0 ->
       all_cvalues (r i j) (caccurate (ext1 A + 1) (ext1 A) czero (fun k => csym_of t a i k) (fun k => b k j))) /\
    changes_only m m' (mcells C0)).
Proof. exact (@symm_left_cfma). Qed.
Print Assumptions C101_symm_left.

Example C101_symm_left_case :
  let m := cfma_mem in
  let A : mat FC := row_major 0 2 2 in
  let t := Lower in
  let B : mat FC := row_major 4 2 2 in
  let C0 : mat FC := row_major 14 2 2 in
  let a := cm [[cl (fl 1 (-1)) (fl 1 (-54)); cl (fl 3 0) (fl 7 2)]; [cl (fl 5 (-60)) (fl 3 (-3)); cl (fl 1 0) (fl 1 0)]] in
  let b := cm [[cl (fl 1 0) (fl 1 (-54)); cl (fl 1 (-54)) (fl 3 0)]; [cl (fl 7 2) (fl 5 (-1)); cl (fl 3 (-3)) (fl 0 0)]] in
  succeeds (symmetric_matrix_product_left A t B C0) m (fun _ m' =>
    (exists r, mat_holds m' C0 r /\ forall i j, i < ext0 C0 -> j < ext1 C0 ->
       all_cvalues (r i j) (caccurate (ext1 A + 1) (ext1 A) czero (fun k => csym_of t a i k) (fun k => b k j))) /\
    changes_only m m' (mcells C0)).
Proof.
  intros m A t B C0 a b. apply (C101_symm_left 53 1024 prec53 emax1024 m A t B C0 a b);
    unfold m, A, t, B, C0, a, b, cfma_mem; match goal with |- fits _ _ => vm_compute; split; discriminate | _ => concrete end.
Qed.

(** C = B S *)
Theorem C101_symm_right : forall prec emax (Hp : Prec_gt_0 prec) (He : Prec_lt_emax prec emax) (m : mem (fma_cx_ops prec emax Hp He)) B A t C0 (a : nat -> nat -> binary_float prec emax * binary_float prec emax) (b : nat -> nat -> binary_float prec emax * binary_float prec emax),
  ext0 A = ext1 A -> ext0 C0 = ext0 B -> ext1 B = ext0 A -> ext1 C0 = ext1 A -> mat_holds_on m A (in_tri t) (fun i j => cexactly (a i j)) ->
  mat_holds m B (fun i j => cexactly (b i j)) -> mwritable C0 -> allocated m (mcells C0) -> disjoint (mcells_on A (in_tri t)) (mcells C0) ->
  disjoint (mcells B) (mcells C0) ->
  succeeds (symmetric_matrix_product_right B A t C0) m (fun _ m' =>
    (exists r, mat_holds m' C0 r /\ forall i j, i < ext0 C0 -> j < ext1 C0 ->
       all_cvalues (r i j) (caccurate (ext1 A + 1) (ext1 A) czero (b i) (fun k => csym_of t a k j))) /\
    changes_only m m' (mcells C0)).
Proof. exact (@symm_right_cfma). Qed.
Print Assumptions C101_symm_right.

Example C101_symm_right_case :
  let m := cfma_mem in
  let B : mat FC := row_major 4 2 2 in
  let A : mat FC := row_major 0 2 2 in
  let t := Lower in
  let C0 : mat FC := row_major 14 2 2 in
  let a := cm [[cl (fl 1 (-1)) (fl 1 (-54)); cl (fl 3 0) (fl 7 2)]; [cl (fl 5 (-60)) (fl 3 (-3)); cl (fl 1 0) (fl 1 0)]] in
  let b := cm [[cl (fl 1 0) (fl 1 (-54)); cl (fl 1 (-54)) (fl 3 0)]; [cl (fl 7 2) (fl 5 (-1)); cl (fl 3 (-3)) (fl 0 0)]] in
  succeeds (symmetric_matrix_product_right B A t C0) m (fun _ m' =>
    (exists r, mat_holds m' C0 r /\ forall i j, i < ext0 C0 -> j < ext1 C0 ->
       all_cvalues (r i j) (caccurate (ext1 A + 1) (ext1 A) czero (b i) (fun k => csym_of t a k j))) /\
    changes_only m m' (mcells C0)).
Proof.
  intros m B A t C0 a b. apply (C101_symm_right 53 1024 prec53 emax1024 m B A t C0 a b);
    unfold m, B, A, t, C0, a, b, cfma_mem; match goal with |- fits _ _ => vm_compute; split; discriminate | _ => concrete end.
Qed.

(** C = B H, with the stored diagonal as it is (see C37) *)
Theorem C101_hemm_right : forall prec emax (Hp : Prec_gt_0 prec) (He : Prec_lt_emax prec emax) (m : mem (fma_cx_ops prec emax Hp He)) B A t C0 (a : nat -> nat -> binary_float prec emax * binary_float prec emax) (b : nat -> nat -> binary_float prec emax * binary_float prec emax),
  ext0 A = ext1 A -> ext0 C0 = ext0 B -> ext1 B = ext0 A -> ext1 C0 = ext1 A -> mat_holds_on m A (in_tri t) (fun i j => cexactly (a i j)) ->
  mat_holds m B (fun i j => cexactly (b i j)) -> mwritable C0 -> allocated m (mcells C0) -> disjoint (mcells_on A (in_tri t)) (mcells C0) ->
  disjoint (mcells B) (mcells C0) ->
  succeeds (hermitian_matrix_product_right B A t C0) m (fun _ m' =>
    (exists r, mat_holds m' C0 r /\ forall i j, i < ext0 C0 -> j < ext1 C0 ->
       all_cvalues (r i j) (caccurate (ext1 A + 1) (ext1 A) czero (b i) (fun k => if in_tri_b t k j then a k j else conj_of (a j k)))) /\
    changes_only m m' (mcells C0)).
Proof. exact (@hemm_right_cfma). Qed.
Print Assumptions C101_hemm_right.

Example C101_hemm_right_case :
  let m := cfma_mem in
  let B : mat FC := row_major 4 2 2 in
  let A : mat FC := row_major 0 2 2 in
  let t := Lower in
  let C0 : mat FC := row_major 14 2 2 in
  let a := cm [[cl (fl 1 (-1)) (fl 1 (-54)); cl (fl 3 0) (fl 7 2)]; [cl (fl 5 (-60)) (fl 3 (-3)); cl (fl 1 0) (fl 1 0)]] in
  let b := cm [[cl (fl 1 0) (fl 1 (-54)); cl (fl 1 (-54)) (fl 3 0)]; [cl (fl 7 2) (fl 5 (-1)); cl (fl 3 (-3)) (fl 0 0)]] in
  succeeds (hermitian_matrix_product_right B A t C0) m (fun _ m' =>
    (exists r, mat_holds m' C0 r /\ forall i j, i < ext0 C0 -> j < ext1 C0 ->
       all_cvalues (r i j) (caccurate (ext1 A + 1) (ext1 A) czero (b i) (fun k => if in_tri_b t k j then a k j else conj_of (a j k)))) /\
    changes_only m m' (mcells C0)).
Proof.
  intros m B A t C0 a b. apply (C101_hemm_right 53 1024 prec53 emax1024 m B A t C0 a b);
    unfold m, B, A, t, C0, a, b, cfma_mem; match goal with |- fits _ _ => vm_compute; split; discriminate | _ => concrete end.
Qed.

(** A += x x^T *)
Theorem C101_syr : forall prec emax (Hp : Prec_gt_0 prec) (He : Prec_lt_emax prec emax) (m : mem (fma_cx_ops prec emax Hp He)) x A t (a : nat -> nat -> binary_float prec emax * binary_float prec emax) (f : nat -> binary_float prec emax * binary_float prec emax),
  ext0 A = ext1 A -> vext x = ext0 A -> mat_holds_on m A (in_tri t) (fun i j => cexactly (a i j)) -> vec_holds m x (fun i => cexactly (f i)) ->
  mwritable_on A (in_tri t) -> disjoint (vcells x) (mcells_on A (in_tri t)) ->
  succeeds (symmetric_matrix_rank_1_update x A t) m (fun _ m' =>
    (exists r, mat_holds_on m' A (in_tri t) r /\ forall i j, i < ext0 A -> j < ext1 A -> in_tri t i j ->
       all_cvalues (r i j) (caccurate 3 1 (a i j) (fun _ => f i) (fun _ => f j))) /\
    changes_only m m' (mcells_on A (in_tri t))).
Proof. exact (@syr_cfma). Qed.
Print Assumptions C101_syr.

Example C101_syr_case :
  let m := cfma_mem in
  let x : vec FC := vec_at 8 2 in
  let A : mat FC := row_major 0 2 2 in
  let t := Lower in
  let a := cm [[cl (fl 1 (-1)) (fl 1 (-54)); cl (fl 3 0) (fl 7 2)]; [cl (fl 5 (-60)) (fl 3 (-3)); cl (fl 1 0) (fl 1 0)]] in
  let f := cv [cl (fl 1 0) (fl 0 0); cl (fl 1 (-54)) (fl 7 0)] in
  succeeds (symmetric_matrix_rank_1_update x A t) m (fun _ m' =>
    (exists r, mat_holds_on m' A (in_tri t) r /\ forall i j, i < ext0 A -> j < ext1 A -> in_tri t i j ->
       all_cvalues (r i j) (caccurate 3 1 (a i j) (fun _ => f i) (fun _ => f j))) /\
    changes_only m m' (mcells_on A (in_tri t))).
Proof.
  intros m x A t a f. apply (C101_syr 53 1024 prec53 emax1024 m x A t a f);
    unfold m, x, A, t, a, f, cfma_mem; match goal with |- fits _ _ => vm_compute; split; discriminate | _ => concrete end.
Qed.

(** A += x y^T + y x^T *)
Theorem C101_syr2 : forall prec emax (Hp : Prec_gt_0 prec) (He : Prec_lt_emax prec emax) (m : mem (fma_cx_ops prec emax Hp He)) x y A t (a : nat -> nat -> binary_float prec emax * binary_float prec emax) (f : nat -> binary_float prec emax * binary_float prec emax) (g : nat -> binary_float prec emax * binary_float prec emax),
  ext0 A = ext1 A -> vext x = ext0 A -> vext y = ext0 A -> mat_holds_on m A (in_tri t) (fun i j => cexactly (a i j)) -> vec_holds m x (fun i => cexactly (f i)) ->
  vec_holds m y (fun i => cexactly (g i)) -> mwritable_on A (in_tri t) -> disjoint (vcells x) (mcells_on A (in_tri t)) ->
  disjoint (vcells y) (mcells_on A (in_tri t)) ->
  succeeds (symmetric_matrix_rank_2_update x y A t) m (fun _ m' =>
    (exists r, mat_holds_on m' A (in_tri t) r /\ forall i j, i < ext0 A -> j < ext1 A -> in_tri t i j ->
       all_cvalues (r i j) (caccurate2 4 1 (a i j) (fun _ => f i) (fun _ => g j) (fun _ => g i) (fun _ => f j))) /\
    changes_only m m' (mcells_on A (in_tri t))).
Proof. exact (@syr2_cfma). Qed.
Print Assumptions C101_syr2.

Example C101_syr2_case :
  let m := cfma_mem in
  let x : vec FC := vec_at 8 2 in
  let y : vec FC := vec_at 10 2 in
  let A : mat FC := row_major 0 2 2 in
  let t := Lower in
  let a := cm [[cl (fl 1 (-1)) (fl 1 (-54)); cl (fl 3 0) (fl 7 2)]; [cl (fl 5 (-60)) (fl 3 (-3)); cl (fl 1 0) (fl 1 0)]] in
  let f := cv [cl (fl 1 0) (fl 0 0); cl (fl 1 (-54)) (fl 7 0)] in
  let g := cv [cl (fl 3 0) (fl 1 30); cl (fl 5 (-1)) (fl 1 1)] in
  succeeds (symmetric_matrix_rank_2_update x y A t) m (fun _ m' =>
    (exists r, mat_holds_on m' A (in_tri t) r /\ forall i j, i < ext0 A -> j < ext1 A -> in_tri t i j ->
       all_cvalues (r i j) (caccurate2 4 1 (a i j) (fun _ => f i) (fun _ => g j) (fun _ => g i) (fun _ => f j))) /\
    changes_only m m' (mcells_on A (in_tri t))).
Proof.
  intros m x y A t a f g. apply (C101_syr2 53 1024 prec53 emax1024 m x y A t a f g);
    unfold m, x, y, A, t, a, f, g, cfma_mem; match goal with |- fits _ _ => vm_compute; split; discriminate | _ => concrete end.
Qed.

(** C += A A^T *)
Theorem C101_syrk : forall prec emax (Hp : Prec_gt_0 prec) (He : Prec_lt_emax prec emax) (m : mem (fma_cx_ops prec emax Hp He)) A C0 t (a : nat -> nat -> binary_float prec emax * binary_float prec emax) (c : nat -> nat -> binary_float prec emax * binary_float prec emax),
  ext0 C0 = ext1 C0 -> ext0 A = ext0 C0 -> mat_holds m A (fun i j => cexactly (a i j)) -> mat_holds_on m C0 (in_tri t) (fun i j => cexactly (c i j)) ->
  mwritable_on C0 (in_tri t) -> disjoint (mcells A) (mcells_on C0 (in_tri t)) ->
  succeeds (symmetric_matrix_rank_k_update A C0 t) m (fun _ m' =>
    (exists r, mat_holds_on m' C0 (in_tri t) r /\ forall i j, i < ext0 C0 -> j < ext1 C0 -> in_tri t i j ->
       all_cvalues (r i j) (caccurate (ext1 A + 2) (ext1 A) (c i j) (a i) (a j))) /\
    changes_only m m' (mcells_on C0 (in_tri t))).
Proof. exact (@syrk_cfma). Qed.
Print Assumptions C101_syrk.

Example C101_syrk_case :
  let m := cfma_mem in
  let A : mat FC := row_major 0 2 2 in
  let C0 : mat FC := row_major 14 2 2 in
  let t := Lower in
  let a := cm [[cl (fl 1 (-1)) (fl 1 (-54)); cl (fl 3 0) (fl 7 2)]; [cl (fl 5 (-60)) (fl 3 (-3)); cl (fl 1 0) (fl 1 0)]] in
  let c := cm [[cl (fl 7 0) (fl 3 0); cl (fl 1 30) (fl 5 (-60))]; [cl (fl 1 1) (fl 1 0); cl (fl 9 0) (fl 1 0)]] in
  succeeds (symmetric_matrix_rank_k_update A C0 t) m (fun _ m' =>
    (exists r, mat_holds_on m' C0 (in_tri t) r /\ forall i j, i < ext0 C0 -> j < ext1 C0 -> in_tri t i j ->
       all_cvalues (r i j) (caccurate (ext1 A + 2) (ext1 A) (c i j) (a i) (a j))) /\
    changes_only m m' (mcells_on C0 (in_tri t))).
Proof.
  intros m A C0 t a c. apply (C101_syrk 53 1024 prec53 emax1024 m A C0 t a c);
    unfold m, A, C0, t, a, c, cfma_mem; match goal with |- fits _ _ => vm_compute; split; discriminate | _ => concrete end.
Qed.

(** C += A B^T + B A^T *)
Theorem C101_syr2k : forall prec emax (Hp : Prec_gt_0 prec) (He : Prec_lt_emax prec emax) (m : mem (fma_cx_ops prec emax Hp He)) A B C0 t (a : nat -> nat -> binary_float prec emax * binary_float prec emax) (b : nat -> nat -> binary_float prec emax * binary_float prec emax) (c : nat -> nat -> binary_float prec emax * binary_float prec emax),
  ext0 C0 = ext1 C0 -> ext0 A = ext0 C0 -> ext0 B = ext0 C0 -> ext1 B = ext1 A -> mat_holds m A (fun i j => cexactly (a i j)) ->
  mat_holds m B (fun i j => cexactly (b i j)) -> mat_holds_on m C0 (in_tri t) (fun i j => cexactly (c i j)) -> mwritable_on C0 (in_tri t) ->
  disjoint (mcells A) (mcells_on C0 (in_tri t)) -> disjoint (mcells B) (mcells_on C0 (in_tri t)) ->
  succeeds (symmetric_matrix_rank_2k_update A B C0 t) m (fun _ m' =>
    (exists r, mat_holds_on m' C0 (in_tri t) r /\ forall i j, i < ext0 C0 -> j < ext1 C0 -> in_tri t i j ->
       all_cvalues (r i j) (caccurate2 (ext1 A + 3) (ext1 A) (c i j) (a i) (b j) (b i) (a j))) /\
    changes_only m m' (mcells_on C0 (in_tri t))).
Proof. exact (@syr2k_cfma). Qed.
Print Assumptions C101_syr2k.

Example C101_syr2k_case :
  let m := cfma_mem in
  let A : mat FC := row_major 0 2 2 in
  let B : mat FC := row_major 4 2 2 in
  let C0 : mat FC := row_major 14 2 2 in
  let t := Lower in
  let a := cm [[cl (fl 1 (-1)) (fl 1 (-54)); cl (fl 3 0) (fl 7 2)]; [cl (fl 5 (-60)) (fl 3 (-3)); cl (fl 1 0) (fl 1 0)]] in
  let b := cm [[cl (fl 1 0) (fl 1 (-54)); cl (fl 1 (-54)) (fl 3 0)]; [cl (fl 7 2) (fl 5 (-1)); cl (fl 3 (-3)) (fl 0 0)]] in
  let c := cm [[cl (fl 7 0) (fl 3 0); cl (fl 1 30) (fl 5 (-60))]; [cl (fl 1 1) (fl 1 0); cl (fl 9 0) (fl 1 0)]] in
  succeeds (symmetric_matrix_rank_2k_update A B C0 t) m (fun _ m' =>
    (exists r, mat_holds_on m' C0 (in_tri t) r /\ forall i j, i < ext0 C0 -> j < ext1 C0 -> in_tri t i j ->
       all_cvalues (r i j) (caccurate2 (ext1 A + 3) (ext1 A) (c i j) (a i) (b j) (b i) (a j))) /\
    changes_only m m' (mcells_on C0 (in_tri t))).
Proof.
  intros m A B C0 t a b c. apply (C101_syr2k 53 1024 prec53 emax1024 m A B C0 t a b c);
    unfold m, A, B, C0, t, a, b, c, cfma_mem; match goal with |- fits _ _ => vm_compute; split; discriminate | _ => concrete end.
Qed.

(** y = T x *)
Theorem C101_trmv : forall prec emax (Hp : Prec_gt_0 prec) (He : Prec_lt_emax prec emax) (m : mem (fma_cx_ops prec emax Hp He)) A t d x y (a : nat -> nat -> binary_float prec emax * binary_float prec emax) (f : nat -> binary_float prec emax * binary_float prec emax),
  ext0 A = ext1 A -> vext x = ext1 A -> vext y = ext0 A ->
  mat_holds_on m A (stored t d) (fun i j => cexactly (a i j)) -> vec_holds m x (fun i => cexactly (f i)) -> vwritable y -> allocated m (vcells y) ->
  disjoint (mcells_on A (stored t d)) (vcells y) -> disjoint (vcells x) (vcells y) ->
  succeeds (triangular_matrix_vector_product A t d x y) m (fun _ m' =>
    (exists r, vec_holds m' y r /\ forall i, i < vext y -> all_cvalues (r i) (ctri_accurate (ext1 A + 1) t d (ext1 A) i czero a f)) /\
    changes_only m m' (vcells y)).
Proof. exact (@trmv_cfma). Qed.
Print Assumptions C101_trmv.

Example C101_trmv_case :
  let m := cfma_mem in
  let A : mat FC := row_major 0 2 2 in
  let t := Lower in
  let d := ImplicitUnit in
  let x : vec FC := vec_at 8 2 in
  let y : vec FC := vec_at 10 2 in
  let a := cm [[cl (fl 1 (-1)) (fl 1 (-54)); cl (fl 3 0) (fl 7 2)]; [cl (fl 5 (-60)) (fl 3 (-3)); cl (fl 1 0) (fl 1 0)]] in
  let f := cv [cl (fl 1 0) (fl 0 0); cl (fl 1 (-54)) (fl 7 0)] in
  succeeds (triangular_matrix_vector_product A t d x y) m (fun _ m' =>
    (exists r, vec_holds m' y r /\ forall i, i < vext y -> all_cvalues (r i) (ctri_accurate (ext1 A + 1) t d (ext1 A) i czero a f)) /\
    changes_only m m' (vcells y)).
Proof.
  intros m A t d x y a f. apply (C101_trmv 53 1024 prec53 emax1024 m A t d x y a f);
    unfold m, A, t, d, x, y, a, f, cfma_mem; match goal with |- fits _ _ => vm_compute; split; discriminate | _ => concrete end.
Qed.

(** z = y + T x *)
Theorem C101_trmv_upd : forall prec emax (Hp : Prec_gt_0 prec) (He : Prec_lt_emax prec emax) (m : mem (fma_cx_ops prec emax Hp He)) A t d x y z (a : nat -> nat -> binary_float prec emax * binary_float prec emax) (f : nat -> binary_float prec emax * binary_float prec emax) (g : nat -> binary_float prec emax * binary_float prec emax),
  ext0 A = ext1 A -> vext x = ext1 A -> vext y = ext0 A -> vext z = ext0 A ->
  mat_holds_on m A (stored t d) (fun i j => cexactly (a i j)) -> vec_holds m x (fun i => cexactly (f i)) -> vec_holds m y (fun i => cexactly (g i)) -> vwritable z -> allocated m (vcells z) ->
  disjoint (mcells_on A (stored t d)) (vcells z) -> disjoint (vcells x) (vcells z) -> disjoint_or_aligned_v y z ->
  succeeds (triangular_matrix_vector_product_upd A t d x y z) m (fun _ m' =>
    (exists r, vec_holds m' z r /\ forall i, i < vext z -> all_cvalues (r i) (ctri_accurate (ext1 A + 2) t d (ext1 A) i (g i) a f)) /\
    changes_only m m' (vcells z)).
Proof. exact (@trmv_upd_cfma). Qed.
Print Assumptions C101_trmv_upd.

Example C101_trmv_upd_case :
  let m := cfma_mem in
  let A : mat FC := row_major 0 2 2 in
  let t := Lower in
  let d := ImplicitUnit in
  let x : vec FC := vec_at 8 2 in
  let y : vec FC := vec_at 10 2 in
  let z : vec FC := vec_at 12 2 in
  let a := cm [[cl (fl 1 (-1)) (fl 1 (-54)); cl (fl 3 0) (fl 7 2)]; [cl (fl 5 (-60)) (fl 3 (-3)); cl (fl 1 0) (fl 1 0)]] in
  let f := cv [cl (fl 1 0) (fl 0 0); cl (fl 1 (-54)) (fl 7 0)] in
  let g := cv [cl (fl 3 0) (fl 1 30); cl (fl 5 (-1)) (fl 1 1)] in
  succeeds (triangular_matrix_vector_product_upd A t d x y z) m (fun _ m' =>
    (exists r, vec_holds m' z r /\ forall i, i < vext z -> all_cvalues (r i) (ctri_accurate (ext1 A + 2) t d (ext1 A) i (g i) a f)) /\
    changes_only m m' (vcells z)).
Proof.
  intros m A t d x y z a f g. apply (C101_trmv_upd 53 1024 prec53 emax1024 m A t d x y z a f g);
    unfold m, A, t, d, x, y, z, a, f, g, cfma_mem; match goal with |- fits _ _ => vm_compute; split; discriminate | _ => concrete end.
Qed.

(** C = T B *)
Theorem C101_trmm_left : forall prec emax (Hp : Prec_gt_0 prec) (He : Prec_lt_emax prec emax) ty (m : mem (fma_cx_ops prec emax Hp He)) A t d B C0 (a : nat -> nat -> binary_float prec emax * binary_float prec emax) (b : nat -> nat -> binary_float prec emax * binary_float prec emax),
  fits ty (ext0 C0) ->
  ext0 A = ext1 A -> ext0 C0 = ext0 A -> ext1 A = ext0 B -> ext1 C0 = ext1 B ->
  mat_holds_on m A (stored t d) (fun i j => cexactly (a i j)) -> mat_holds m B (fun i j => cexactly (b i j)) -> mwritable C0 -> allocated m (mcells C0) ->
  disjoint (mcells_on A (stored t d)) (mcells C0) -> disjoint (mcells B) (mcells C0) ->
  succeeds (triangular_matrix_product_left ty A t d B C0) m (fun _ m' =>
    (exists r, mat_holds m' C0 r /\ forall i j, i < ext0 C0 -> j < ext1 C0 ->
       all_cvalues (r i j) (ctri_accurate (ext1 A + 1) t d (ext1 A) i czero a (fun k => b k j))) /\
    changes_only m m' (mcells C0)).
Proof. exact (@trmm_left_cfma). Qed.
Print Assumptions C101_trmm_left.

Example C101_trmm_left_case :
  let m := cfma_mem in
  let ty := U64 in
  let A : mat FC := row_major 0 2 2 in
  let t := Lower in
  let d := ImplicitUnit in
  let B : mat FC := row_major 4 2 2 in
  let C0 : mat FC := row_major 14 2 2 in
  let a := cm [[cl (fl 1 (-1)) (fl 1 (-54)); cl (fl 3 0) (fl 7 2)]; [cl (fl 5 (-60)) (fl 3 (-3)); cl (fl 1 0) (fl 1 0)]] in
  let b := cm [[cl (fl 1 0) (fl 1 (-54)); cl (fl 1 (-54)) (fl 3 0)]; [cl (fl 7 2) (fl 5 (-1)); cl (fl 3 (-3)) (fl 0 0)]] in
  succeeds (triangular_matrix_product_left ty A t d B C0) m (fun _ m' =>
    (exists r, mat_holds m' C0 r /\ forall i j, i < ext0 C0 -> j < ext1 C0 ->
       all_cvalues (r i j) (ctri_accurate (ext1 A + 1) t d (ext1 A) i czero a (fun k => b k j))) /\
    changes_only m m' (mcells C0)).
Proof.
  intros m ty A t d B C0 a b. apply (C101_trmm_left 53 1024 prec53 emax1024 ty m A t d B C0 a b);
    unfold m, ty, A, t, d, B, C0, a, b, cfma_mem; match goal with |- fits _ _ => vm_compute; split; discriminate | _ => concrete end.
Qed.

(** C = B T *)
Theorem C101_trmm_right : forall prec emax (Hp : Prec_gt_0 prec) (He : Prec_lt_emax prec emax) ty (m : mem (fma_cx_ops prec emax Hp He)) B A t d C0 (a : nat -> nat -> binary_float prec emax * binary_float prec emax) (b : nat -> nat -> binary_float prec emax * binary_float prec emax),
  fits ty (ext1 C0) ->
  ext0 A = ext1 A -> ext0 C0 = ext0 B -> ext1 B = ext0 A -> ext1 C0 = ext1 A ->
  mat_holds_on m A (stored t d) (fun i j => cexactly (a i j)) -> mat_holds m B (fun i j => cexactly (b i j)) -> mwritable C0 -> allocated m (mcells C0) ->
  disjoint (mcells_on A (stored t d)) (mcells C0) -> disjoint (mcells B) (mcells C0) ->
  succeeds (triangular_matrix_product_right ty B A t d C0) m (fun _ m' =>
    (exists r, mat_holds m' C0 r /\ forall i j, i < ext0 C0 -> j < ext1 C0 ->
       all_cvalues (r i j) (ctri_accurate_r (ext1 A + 1) t d (ext1 A) j czero a (b i))) /\
    changes_only m m' (mcells C0)).
Proof. exact (@trmm_right_cfma). Qed.
Print Assumptions C101_trmm_right.

Example C101_trmm_right_case :
  let m := cfma_mem in
  let ty := U64 in
  let B : mat FC := row_major 4 2 2 in
  let A : mat FC := row_major 0 2 2 in
  let t := Lower in
  let d := ImplicitUnit in
  let C0 : mat FC := row_major 14 2 2 in
  let a := cm [[cl (fl 1 (-1)) (fl 1 (-54)); cl (fl 3 0) (fl 7 2)]; [cl (fl 5 (-60)) (fl 3 (-3)); cl (fl 1 0) (fl 1 0)]] in
  let b := cm [[cl (fl 1 0) (fl 1 (-54)); cl (fl 1 (-54)) (fl 3 0)]; [cl (fl 7 2) (fl 5 (-1)); cl (fl 3 (-3)) (fl 0 0)]] in
  succeeds (triangular_matrix_product_right ty B A t d C0) m (fun _ m' =>
    (exists r, mat_holds m' C0 r /\ forall i j, i < ext0 C0 -> j < ext1 C0 ->
       all_cvalues (r i j) (ctri_accurate_r (ext1 A + 1) t d (ext1 A) j czero a (b i))) /\
    changes_only m m' (mcells C0)).
Proof.
  intros m ty B A t d C0 a b. apply (C101_trmm_right 53 1024 prec53 emax1024 ty m B A t d C0 a b);
    unfold m, ty, B, A, t, d, C0, a, b, cfma_mem; match goal with |- fits _ _ => vm_compute; split; discriminate | _ => concrete end.
Qed.


(** * The diagonal of a Hermitian matrix enters products as a number of the real type: both parts of the other factor are
    multiplied by it, and no products by a zero imaginary part are added, which could give NaN. *)
Theorem C101_real_factor : forall prec emax (Hp : Prec_gt_0 prec) (He : Prec_lt_emax prec emax) (a y : fma_cx_ops prec emax Hp He),
  mul (re a) y = @Cx (fma_ops prec emax Hp He) (mul (part_re a) (part_re y)) (mul (part_re a) (part_im y)) false.
Proof. reflexivity. Qed.
Print Assumptions C101_real_factor.
(** real(2 + 5i) * (inf + 3i) = inf + 6i, however contracted. *)
Example C101_real_factor_case : let inf := @B754_infinity 53 1024 false in
  let p := mul (re (cexactly (cl (fl 2 0) (fl 5 0)) : FC)) (cexactly (cl inf (fl 3 0)) : FC) in
  p = @Cx (fma_ops 53 1024 prec53 emax1024) (mul (o := fma_ops 53 1024 prec53 emax1024) (exactly (fl 2 0)) (exactly inf))
    (mul (o := fma_ops 53 1024 prec53 emax1024) (exactly (fl 2 0)) (exactly (fl 3 0))) false.
Proof. intros inf p. unfold p. rewrite C101_real_factor. reflexivity. Qed.

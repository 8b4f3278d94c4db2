(** C91: the error bounds of C59 and C70 when the compiler may contract multiplications and additions (fused multiply-add),
    for every binary format: precision [prec], largest exponent [emax] (53 and 1024 for double). *)
From Coq Require Import List Arith ZArith Reals Lia Lra Bool.
From Flocq Require Import Core.Core IEEE754.BinarySingleNaN.
From Verif Require Import Mem Scalar View Spec SpecR SpecF SpecF2 SpecRel Idx Norm Ieee Blas1 Blas2 Blas3 Wp Fma SpecFma PfFma2 PfFmaRel Inst PropFloat.
Import ListNotations.
Local Open Scope nat_scope.

(** Used below. *)
Notation FM := (fma_ops 53 1024 prec53 emax1024).
Definition fma_mem : mem FM := (* test data *)
  mem_of (map exactly [fl 1 (-1); fl 3 0; fl 5 (-60); fl 1 0; fl 1 0; fl 1 (-54); fl 7 2; fl 3 (-3); fl 1 0; fl 1 (-54); fl 3 0; fl 5 (-1);
    fl 0 0; fl 0 0; fl 7 0; fl 1 30; fl 1 1; fl 9 0; fl 7 0; fl 1 30; fl 1 1; fl 9 0]).

(** * The sets of possible values contain the results of arithmetic without contraction and of any contraction chosen from the
    operands; so, by C86, do the memories and results of all algorithms. *)
Theorem C91_plain : forall prec emax (Hp : Prec_gt_0 prec) (He : Prec_lt_emax prec emax),
  respects (O1 := ieee_ops prec emax Hp He) (O2 := fma_ops prec emax Hp He) may_be /\
  respects_op (O1 := ieee_ops prec emax Hp He) (O2 := fma_ops prec emax Hp He) may_be (@div (ieee_ops prec emax Hp He)) (@div (fma_ops prec emax Hp He)).
Proof. exact plain_respects. Qed.
Print Assumptions C91_plain.
Theorem C91_pick : forall prec emax (Hp : Prec_gt_0 prec) (He : Prec_lt_emax prec emax) pick,
  respects (O1 := pick_ops prec emax Hp He pick) (O2 := fma_ops prec emax Hp He) may_be_pending /\
  respects_op (O1 := pick_ops prec emax Hp He pick) (O2 := fma_ops prec emax Hp He) may_be_pending
    (@div (pick_ops prec emax Hp He pick)) (@div (fma_ops prec emax Hp He)).
Proof. exact pick_respects. Qed.
Print Assumptions C91_pick.
(** Hence, for example, dot compiled with such contraction is accurate. *)
Theorem C91_dot_pick : forall prec emax (Hp : Prec_gt_0 prec) (He : Prec_lt_emax prec emax) pick
    (m : mem (pick_ops prec emax Hp He pick)) x y (f g : nat -> binary_float prec emax) init,
  vext x = vext y -> vec_holds m x (fun i => (f i, None)) -> vec_holds m y (fun i => (g i, None)) ->
  succeeds (dot x y ((init, None) : pick_ops prec emax Hp He pick)) m (fun r m' => dot_accurate (vext x + 1) (vext x) init f g (fst r) /\ m' = m).
Proof. exact dot_pick. Qed.
Print Assumptions C91_dot_pick.
(** With every product on the right fused, (1+2^-30)^2 - (1+2^-29) is 2^-60; without contraction it is 0. *)
Definition fuse_right : pending 53 1024 -> pending 53 1024 -> bool * bool := fun _ _ => (false, true). (* test data *)
Definition never : pending 53 1024 -> pending 53 1024 -> bool * bool := fun _ _ => (false, false). (* test data *)
Definition pick_mem pick : mem (pick_ops 53 1024 prec53 emax1024 pick) := (* test data *)
  mem_of [(fl 1073741825 (-30), None); (fl 1073741825 (-30), None)].
Example C91_dot_pick_case : forall pick v, In (pick, v) [(fuse_right, B2SF (fl 1 (-60))); (never, B2SF (fl 0 0))] ->
  exists r, run (dot (vec_at 0 1) (vec_at 1 1) ((fl (-536870913) (-29), None) : pick_ops 53 1024 prec53 emax1024 pick)) (pick_mem pick) = Ok r (pick_mem pick) /\
    B2SF (fst r) = v /\
    dot_accurate 2 1 (fl (-536870913) (-29)) (fun _ => fl 1073741825 (-30)) (fun _ => fl 1073741825 (-30)) (fst r).
Proof.
  intros pick v Hpick.
  destruct (C91_dot_pick 53 1024 prec53 emax1024 pick (pick_mem pick) (vec_at 0 1) (vec_at 1 1) (fun _ => fl 1073741825 (-30)) (fun _ => fl 1073741825 (-30)) (fl (-536870913) (-29)))
    as (r & m' & Er & Hr & ->); [unfold pick_mem; concrete..|].
  exists r. split; [exact Er|]. split; [|exact Hr].
  destruct Hpick as [K|[K|[]]]; injection K; clear K; intros <- <-.
  all: pose proof (f_equal (fun o => match o with Ok r _ => Some (B2SF (fst r)) | _ => None end) Er) as K.
  - enough (Some (B2SF (fst r)) = Some (B2SF (fl 1 (-60)))) as Q by (injection Q; auto).
    etransitivity; [symmetry; exact K|]. vm_compute; reflexivity.
  - enough (Some (B2SF (fst r)) = Some (B2SF (fl 0 0))) as Q by (injection Q; auto).
    etransitivity; [symmetry; exact K|]. vm_compute; reflexivity.
Qed.

(** * Error bounds whatever the compiler contracts *)
(** init + sum x_i y_i *)
Theorem C91_dot : forall prec emax (Hp : Prec_gt_0 prec) (He : Prec_lt_emax prec emax) (m : mem (fma_ops prec emax Hp He)) x y (f : nat -> binary_float prec emax) (g : nat -> binary_float prec emax) (init : binary_float prec emax),
  vext x = vext y -> vec_holds m x (fun i => exactly (f i)) -> vec_holds m y (fun i => exactly (g i)) ->
  succeeds (dot x y (exactly init)) m (fun r m' => all_values r (dot_accurate (vext x + 1) (vext x) init f g) /\ m' = m).
Proof. exact (@dot_fma). Qed.
Print Assumptions C91_dot.

Example C91_dot_case :
  let m := fma_mem in
  let x : vec FM := (vec_at 8 2) in
  let y : vec FM := (vec_at 10 2) in
  let f := (fv [fl 1 0; fl 1 (-54)]) in
  let g := (fv [fl 3 0; fl 5 (-1)]) in
  let init := (fl 1 0) in
  succeeds (dot x y (exactly init)) m (fun r m' => all_values r (dot_accurate (vext x + 1) (vext x) init f g) /\ m' = m).
Proof.
  intros m x y f g init. apply (C91_dot 53 1024 prec53 emax1024 m x y f g init);
    unfold m, x, y, f, g, init, fma_mem; match goal with |- fits _ _ => vm_compute; split; discriminate | _ => concrete end.
Qed.

(** sum x_i y_i *)
Theorem C91_dot_noinit : forall prec emax (Hp : Prec_gt_0 prec) (He : Prec_lt_emax prec emax) (m : mem (fma_ops prec emax Hp He)) x y (f : nat -> binary_float prec emax) (g : nat -> binary_float prec emax),
  vext x = vext y -> vec_holds m x (fun i => exactly (f i)) -> vec_holds m y (fun i => exactly (g i)) ->
  succeeds (dot_noinit x y) m (fun r m' => all_values r (dot_accurate (vext x) (vext x) (B754_zero false) f g) /\ m' = m).
Proof. exact (@dot_noinit_fma). Qed.
Print Assumptions C91_dot_noinit.

Example C91_dot_noinit_case :
  let m := fma_mem in
  let x : vec FM := (vec_at 8 2) in
  let y : vec FM := (vec_at 10 2) in
  let f := (fv [fl 1 0; fl 1 (-54)]) in
  let g := (fv [fl 3 0; fl 5 (-1)]) in
  succeeds (dot_noinit x y) m (fun r m' => all_values r (dot_accurate (vext x) (vext x) (B754_zero false) f g) /\ m' = m).
Proof.
  intros m x y f g. apply (C91_dot_noinit 53 1024 prec53 emax1024 m x y f g);
    unfold m, x, y, f, g, fma_mem; match goal with |- fits _ _ => vm_compute; split; discriminate | _ => concrete end.
Qed.

(** y = A x *)
Theorem C91_gemv : forall prec emax (Hp : Prec_gt_0 prec) (He : Prec_lt_emax prec emax) (m : mem (fma_ops prec emax Hp He)) A x y (a : nat -> nat -> binary_float prec emax) (f : nat -> binary_float prec emax),
  vext x = ext1 A -> vext y = ext0 A ->
  mat_holds m A (fun i j => exactly (a i j)) -> vec_holds m x (fun i => exactly (f i)) -> vwritable y -> allocated m (vcells y) ->
  disjoint (mcells A) (vcells y) -> disjoint (vcells x) (vcells y) ->
  succeeds (matrix_vector_product A x y) m (fun _ m' =>
    (exists r, vec_holds m' y r /\ forall i, i < vext y -> all_values (r i) (dot_accurate (ext1 A) (ext1 A) (B754_zero false) (a i) f)) /\
    changes_only m m' (vcells y)).
Proof. exact (@gemv_fma). Qed.
Print Assumptions C91_gemv.

Example C91_gemv_case :
  let m := fma_mem in
  let A : mat FM := (row_major 0 2 2) in
  let x : vec FM := (vec_at 8 2) in
  let y : vec FM := (vec_at 10 2) in
  let a := (fm [[fl 1 (-1); fl 3 0]; [fl 5 (-60); fl 1 0]]) in
  let f := (fv [fl 1 0; fl 1 (-54)]) in
  succeeds (matrix_vector_product A x y) m (fun _ m' =>
    (exists r, vec_holds m' y r /\ forall i, i < vext y -> all_values (r i) (dot_accurate (ext1 A) (ext1 A) (B754_zero false) (a i) f)) /\
    changes_only m m' (vcells y)).
Proof.
  intros m A x y a f. apply (C91_gemv 53 1024 prec53 emax1024 m A x y a f);
    unfold m, A, x, y, a, f, fma_mem; match goal with |- fits _ _ => vm_compute; split; discriminate | _ => concrete end.
Qed.

(** z = y + A x *)
Theorem C91_gemv_upd : forall prec emax (Hp : Prec_gt_0 prec) (He : Prec_lt_emax prec emax) (m : mem (fma_ops prec emax Hp He)) A x y z (a : nat -> nat -> binary_float prec emax) (f : nat -> binary_float prec emax) (g : nat -> binary_float prec emax),
  vext x = ext1 A -> vext y = ext0 A -> vext z = ext0 A ->
  mat_holds m A (fun i j => exactly (a i j)) -> vec_holds m x (fun i => exactly (f i)) -> vec_holds m y (fun i => exactly (g i)) -> vwritable z -> allocated m (vcells z) ->
  disjoint (mcells A) (vcells z) -> disjoint (vcells x) (vcells z) -> disjoint_or_aligned_v y z ->
  succeeds (matrix_vector_product_upd A x y z) m (fun _ m' =>
    (exists r, vec_holds m' z r /\ forall i, i < vext z -> all_values (r i) (dot_accurate (ext1 A + 1) (ext1 A) (g i) (a i) f)) /\
    changes_only m m' (vcells z)).
Proof. exact (@gemv_upd_fma). Qed.
Print Assumptions C91_gemv_upd.

Example C91_gemv_upd_case :
  let m := fma_mem in
  let A : mat FM := (row_major 0 2 2) in
  let x : vec FM := (vec_at 8 2) in
  let y : vec FM := (vec_at 10 2) in
  let z : vec FM := (vec_at 12 2) in
  let a := (fm [[fl 1 (-1); fl 3 0]; [fl 5 (-60); fl 1 0]]) in
  let f := (fv [fl 1 0; fl 1 (-54)]) in
  let g := (fv [fl 3 0; fl 5 (-1)]) in
  succeeds (matrix_vector_product_upd A x y z) m (fun _ m' =>
    (exists r, vec_holds m' z r /\ forall i, i < vext z -> all_values (r i) (dot_accurate (ext1 A + 1) (ext1 A) (g i) (a i) f)) /\
    changes_only m m' (vcells z)).
Proof.
  intros m A x y z a f g. apply (C91_gemv_upd 53 1024 prec53 emax1024 m A x y z a f g);
    unfold m, A, x, y, z, a, f, g, fma_mem; match goal with |- fits _ _ => vm_compute; split; discriminate | _ => concrete end.
Qed.

(** C = A B *)
Theorem C91_gemm : forall prec emax (Hp : Prec_gt_0 prec) (He : Prec_lt_emax prec emax) (m : mem (fma_ops prec emax Hp He)) A B C (a : nat -> nat -> binary_float prec emax) (b : nat -> nat -> binary_float prec emax),
  ext0 C = ext0 A -> ext1 A = ext0 B -> ext1 C = ext1 B ->
  mat_holds m A (fun i j => exactly (a i j)) -> mat_holds m B (fun i j => exactly (b i j)) -> mwritable C -> allocated m (mcells C) ->
  disjoint (mcells A) (mcells C) -> disjoint (mcells B) (mcells C) ->
  succeeds (matrix_product A B C) m (fun _ m' =>
    (exists r, mat_holds m' C r /\ forall i j, i < ext0 C -> j < ext1 C ->
       all_values (r i j) (dot_accurate (ext1 A) (ext1 A) (B754_zero false) (a i) (fun k => b k j))) /\
    changes_only m m' (mcells C)).
Proof. exact (@gemm_fma). Qed.
Print Assumptions C91_gemm.

Example C91_gemm_case :
  let m := fma_mem in
  let A : mat FM := (row_major 0 2 2) in
  let B : mat FM := (row_major 4 2 2) in
  let C : mat FM := (row_major 14 2 2) in
  let a := (fm [[fl 1 (-1); fl 3 0]; [fl 5 (-60); fl 1 0]]) in
  let b := (fm [[fl 1 0; fl 1 (-54)]; [fl 7 2; fl 3 (-3)]]) in
  succeeds (matrix_product A B C) m (fun _ m' =>
    (exists r, mat_holds m' C r /\ forall i j, i < ext0 C -> j < ext1 C ->
       all_values (r i j) (dot_accurate (ext1 A) (ext1 A) (B754_zero false) (a i) (fun k => b k j))) /\
    changes_only m m' (mcells C)).
Proof.
  intros m A B C a b. apply (C91_gemm 53 1024 prec53 emax1024 m A B C a b);
    unfold m, A, B, C, a, b, fma_mem; match goal with |- fits _ _ => vm_compute; split; discriminate | _ => concrete end.
Qed.

(** C = E + A B *)
Theorem C91_gemm_upd : forall prec emax (Hp : Prec_gt_0 prec) (He : Prec_lt_emax prec emax) (m : mem (fma_ops prec emax Hp He)) A B E C (a : nat -> nat -> binary_float prec emax) (b : nat -> nat -> binary_float prec emax) (e : nat -> nat -> binary_float prec emax),
  ext0 C = ext0 A -> ext1 A = ext0 B -> ext1 C = ext1 B -> ext0 E = ext0 C -> ext1 E = ext1 C ->
  mat_holds m A (fun i j => exactly (a i j)) -> mat_holds m B (fun i j => exactly (b i j)) -> mat_holds m E (fun i j => exactly (e i j)) -> mwritable C -> allocated m (mcells C) ->
  disjoint (mcells A) (mcells C) -> disjoint (mcells B) (mcells C) -> disjoint_or_aligned_m E C ->
  succeeds (matrix_product_upd A B E C) m (fun _ m' =>
    (exists r, mat_holds m' C r /\ forall i j, i < ext0 C -> j < ext1 C ->
       all_values (r i j) (dot_accurate (ext1 A + 1) (ext1 A) (e i j) (a i) (fun k => b k j))) /\
    changes_only m m' (mcells C)).
Proof. exact (@gemm_upd_fma). Qed.
Print Assumptions C91_gemm_upd.

Example C91_gemm_upd_case :
  let m := fma_mem in
  let A : mat FM := (row_major 0 2 2) in
  let B : mat FM := (row_major 4 2 2) in
  let E : mat FM := (row_major 18 2 2) in
  let C : mat FM := (row_major 14 2 2) in
  let a := (fm [[fl 1 (-1); fl 3 0]; [fl 5 (-60); fl 1 0]]) in
  let b := (fm [[fl 1 0; fl 1 (-54)]; [fl 7 2; fl 3 (-3)]]) in
  let e := (fm [[fl 7 0; fl 1 30]; [fl 1 1; fl 9 0]]) in
  succeeds (matrix_product_upd A B E C) m (fun _ m' =>
    (exists r, mat_holds m' C r /\ forall i j, i < ext0 C -> j < ext1 C ->
       all_values (r i j) (dot_accurate (ext1 A + 1) (ext1 A) (e i j) (a i) (fun k => b k j))) /\
    changes_only m m' (mcells C)).
Proof.
  intros m A B E C a b e. apply (C91_gemm_upd 53 1024 prec53 emax1024 m A B E C a b e);
    unfold m, A, B, E, C, a, b, e, fma_mem; match goal with |- fits _ _ => vm_compute; split; discriminate | _ => concrete end.
Qed.

(** y = A x, A symmetric *)
Theorem C91_symv : forall prec emax (Hp : Prec_gt_0 prec) (He : Prec_lt_emax prec emax) (m : mem (fma_ops prec emax Hp He)) A t x y (a : nat -> nat -> binary_float prec emax) (f : nat -> binary_float prec emax),
  ext0 A = ext1 A -> vext x = ext1 A -> vext y = ext0 A ->
  mat_holds_on m A (in_tri t) (fun i j => exactly (a i j)) -> vec_holds m x (fun i => exactly (f i)) -> vwritable y -> allocated m (vcells y) ->
  disjoint (mcells_on A (in_tri t)) (vcells y) -> disjoint (vcells x) (vcells y) ->
  succeeds (symmetric_matrix_vector_product A t x y) m (fun _ m' =>
    (exists r, vec_holds m' y r /\ forall i, i < vext y -> all_values (r i) (dot_accurate (ext1 A) (ext1 A) (B754_zero false) (@sym_of (ieee_ops prec emax Hp He) t a i) f)) /\
    changes_only m m' (vcells y)).
Proof. exact (@symv_fma). Qed.
Print Assumptions C91_symv.

Example C91_symv_case :
  let m := fma_mem in
  let A : mat FM := (row_major 0 2 2) in
  let t := Lower in
  let x : vec FM := (vec_at 8 2) in
  let y : vec FM := (vec_at 10 2) in
  let a := (fm [[fl 1 (-1); fl 3 0]; [fl 5 (-60); fl 1 0]]) in
  let f := (fv [fl 1 0; fl 1 (-54)]) in
  succeeds (symmetric_matrix_vector_product A t x y) m (fun _ m' =>
    (exists r, vec_holds m' y r /\ forall i, i < vext y -> all_values (r i) (dot_accurate (ext1 A) (ext1 A) (B754_zero false) (@sym_of F64 t a i) f)) /\
    changes_only m m' (vcells y)).
Proof.
  intros m A t x y a f. apply (C91_symv 53 1024 prec53 emax1024 m A t x y a f);
    unfold m, A, t, x, y, a, f, fma_mem; match goal with |- fits _ _ => vm_compute; split; discriminate | _ => concrete end.
Qed.

(** z = y + A x, A symmetric *)
Theorem C91_symv_upd : forall prec emax (Hp : Prec_gt_0 prec) (He : Prec_lt_emax prec emax) (m : mem (fma_ops prec emax Hp He)) A t x y z (a : nat -> nat -> binary_float prec emax) (f : nat -> binary_float prec emax) (g : nat -> binary_float prec emax),
  ext0 A = ext1 A -> vext x = ext1 A -> vext y = ext0 A -> vext z = ext0 A ->
  mat_holds_on m A (in_tri t) (fun i j => exactly (a i j)) -> vec_holds m x (fun i => exactly (f i)) -> vec_holds m y (fun i => exactly (g i)) -> vwritable z -> allocated m (vcells z) ->
  disjoint (mcells_on A (in_tri t)) (vcells z) -> disjoint (vcells x) (vcells z) -> disjoint_or_aligned_v y z ->
  succeeds (symmetric_matrix_vector_product_upd A t x y z) m (fun _ m' =>
    (exists r, vec_holds m' z r /\ forall i, i < vext z -> all_values (r i) (dot_accurate (ext1 A + 1) (ext1 A) (g i) (@sym_of (ieee_ops prec emax Hp He) t a i) f)) /\
    changes_only m m' (vcells z)).
Proof. exact (@symv_upd_fma). Qed.
Print Assumptions C91_symv_upd.

Example C91_symv_upd_case :
  let m := fma_mem in
  let A : mat FM := (row_major 0 2 2) in
  let t := Lower in
  let x : vec FM := (vec_at 8 2) in
  let y : vec FM := (vec_at 10 2) in
  let z : vec FM := (vec_at 12 2) in
  let a := (fm [[fl 1 (-1); fl 3 0]; [fl 5 (-60); fl 1 0]]) in
  let f := (fv [fl 1 0; fl 1 (-54)]) in
  let g := (fv [fl 3 0; fl 5 (-1)]) in
  succeeds (symmetric_matrix_vector_product_upd A t x y z) m (fun _ m' =>
    (exists r, vec_holds m' z r /\ forall i, i < vext z -> all_values (r i) (dot_accurate (ext1 A + 1) (ext1 A) (g i) (@sym_of F64 t a i) f)) /\
    changes_only m m' (vcells z)).
Proof.
  intros m A t x y z a f g. apply (C91_symv_upd 53 1024 prec53 emax1024 m A t x y z a f g);
    unfold m, A, t, x, y, z, a, f, g, fma_mem; match goal with |- fits _ _ => vm_compute; split; discriminate | _ => concrete end.
Qed.

(** C = A B, A symmetric *)
Theorem C91_symm_left : forall prec emax (Hp : Prec_gt_0 prec) (He : Prec_lt_emax prec emax) (m : mem (fma_ops prec emax Hp He)) A t B C (a : nat -> nat -> binary_float prec emax) (b : nat -> nat -> binary_float prec emax),
  ext0 A = ext1 A -> ext0 C = ext0 A -> ext1 A = ext0 B -> ext1 C = ext1 B ->
  mat_holds_on m A (in_tri t) (fun i j => exactly (a i j)) -> mat_holds m B (fun i j => exactly (b i j)) -> mwritable C -> allocated m (mcells C) ->
  disjoint (mcells_on A (in_tri t)) (mcells C) -> disjoint (mcells B) (mcells C) ->
  succeeds (symmetric_matrix_product_left A t B C) m (fun _ m' =>
    (exists r, mat_holds m' C r /\ forall i j, i < ext0 C -> j < ext1 C ->
       all_values (r i j) (dot_accurate (ext1 A) (ext1 A) (B754_zero false) (@sym_of (ieee_ops prec emax Hp He) t a i) (fun k => b k j))) /\
    changes_only m m' (mcells C)).
Proof. exact (@symm_left_fma). Qed.
Print Assumptions C91_symm_left.

Example C91_symm_left_case :
  let m := fma_mem in
  let A : mat FM := (row_major 0 2 2) in
  let t := Lower in
  let B : mat FM := (row_major 4 2 2) in
  let C : mat FM := (row_major 14 2 2) in
  let a := (fm [[fl 1 (-1); fl 3 0]; [fl 5 (-60); fl 1 0]]) in
  let b := (fm [[fl 1 0; fl 1 (-54)]; [fl 7 2; fl 3 (-3)]]) in
  succeeds (symmetric_matrix_product_left A t B C) m (fun _ m' =>
    (exists r, mat_holds m' C r /\ forall i j, i < ext0 C -> j < ext1 C ->
       all_values (r i j) (dot_accurate (ext1 A) (ext1 A) (B754_zero false) (@sym_of F64 t a i) (fun k => b k j))) /\
    changes_only m m' (mcells C)).
Proof.
  intros m A t B C a b. apply (C91_symm_left 53 1024 prec53 emax1024 m A t B C a b);
    unfold m, A, t, B, C, a, b, fma_mem; match goal with |- fits _ _ => vm_compute; split; discriminate | _ => concrete end.
Qed.

(** C = B A, A symmetric *)
Theorem C91_symm_right : forall prec emax (Hp : Prec_gt_0 prec) (He : Prec_lt_emax prec emax) (m : mem (fma_ops prec emax Hp He)) B A t C (a : nat -> nat -> binary_float prec emax) (b : nat -> nat -> binary_float prec emax),
  ext0 A = ext1 A -> ext0 C = ext0 B -> ext1 B = ext0 A -> ext1 C = ext1 A ->
  mat_holds_on m A (in_tri t) (fun i j => exactly (a i j)) -> mat_holds m B (fun i j => exactly (b i j)) -> mwritable C -> allocated m (mcells C) ->
  disjoint (mcells_on A (in_tri t)) (mcells C) -> disjoint (mcells B) (mcells C) ->
  succeeds (symmetric_matrix_product_right B A t C) m (fun _ m' =>
    (exists r, mat_holds m' C r /\ forall i j, i < ext0 C -> j < ext1 C ->
       all_values (r i j) (dot_accurate (ext1 A) (ext1 A) (B754_zero false) (b i) (fun k => @sym_of (ieee_ops prec emax Hp He) t a k j))) /\
    changes_only m m' (mcells C)).
Proof. exact (@symm_right_fma). Qed.
Print Assumptions C91_symm_right.

Example C91_symm_right_case :
  let m := fma_mem in
  let B : mat FM := (row_major 4 2 2) in
  let A : mat FM := (row_major 0 2 2) in
  let t := Lower in
  let C : mat FM := (row_major 14 2 2) in
  let a := (fm [[fl 1 (-1); fl 3 0]; [fl 5 (-60); fl 1 0]]) in
  let b := (fm [[fl 1 0; fl 1 (-54)]; [fl 7 2; fl 3 (-3)]]) in
  succeeds (symmetric_matrix_product_right B A t C) m (fun _ m' =>
    (exists r, mat_holds m' C r /\ forall i j, i < ext0 C -> j < ext1 C ->
       all_values (r i j) (dot_accurate (ext1 A) (ext1 A) (B754_zero false) (b i) (fun k => @sym_of F64 t a k j))) /\
    changes_only m m' (mcells C)).
Proof.
  intros m B A t C a b. apply (C91_symm_right 53 1024 prec53 emax1024 m B A t C a b);
    unfold m, B, A, t, C, a, b, fma_mem; match goal with |- fits _ _ => vm_compute; split; discriminate | _ => concrete end.
Qed.

(** y = A x, A triangular *)
Theorem C91_trmv : forall prec emax (Hp : Prec_gt_0 prec) (He : Prec_lt_emax prec emax) (m : mem (fma_ops prec emax Hp He)) A t d x y (a : nat -> nat -> binary_float prec emax) (f : nat -> binary_float prec emax),
  ext0 A = ext1 A -> vext x = ext1 A -> vext y = ext0 A ->
  mat_holds_on m A (stored t d) (fun i j => exactly (a i j)) -> vec_holds m x (fun i => exactly (f i)) -> vwritable y -> allocated m (vcells y) ->
  disjoint (mcells_on A (stored t d)) (vcells y) -> disjoint (vcells x) (vcells y) ->
  succeeds (triangular_matrix_vector_product A t d x y) m (fun _ m' =>
    (exists r, vec_holds m' y r /\ forall i, i < vext y -> all_values (r i) (tri_accurate (ext1 A) t d (ext1 A) i (B754_zero false) a f)) /\
    changes_only m m' (vcells y)).
Proof. exact (@trmv_fma). Qed.
Print Assumptions C91_trmv.

Example C91_trmv_case :
  let m := fma_mem in
  let A : mat FM := (row_major 0 2 2) in
  let t := Lower in
  let d := Explicit in
  let x : vec FM := (vec_at 8 2) in
  let y : vec FM := (vec_at 10 2) in
  let a := (fm [[fl 1 (-1); fl 3 0]; [fl 5 (-60); fl 1 0]]) in
  let f := (fv [fl 1 0; fl 1 (-54)]) in
  succeeds (triangular_matrix_vector_product A t d x y) m (fun _ m' =>
    (exists r, vec_holds m' y r /\ forall i, i < vext y -> all_values (r i) (tri_accurate (ext1 A) t d (ext1 A) i (B754_zero false) a f)) /\
    changes_only m m' (vcells y)).
Proof.
  intros m A t d x y a f. apply (C91_trmv 53 1024 prec53 emax1024 m A t d x y a f);
    unfold m, A, t, d, x, y, a, f, fma_mem; match goal with |- fits _ _ => vm_compute; split; discriminate | _ => concrete end.
Qed.

(** z = y + A x, A triangular *)
Theorem C91_trmv_upd : forall prec emax (Hp : Prec_gt_0 prec) (He : Prec_lt_emax prec emax) (m : mem (fma_ops prec emax Hp He)) A t d x y z (a : nat -> nat -> binary_float prec emax) (f : nat -> binary_float prec emax) (g : nat -> binary_float prec emax),
  ext0 A = ext1 A -> vext x = ext1 A -> vext y = ext0 A -> vext z = ext0 A ->
  mat_holds_on m A (stored t d) (fun i j => exactly (a i j)) -> vec_holds m x (fun i => exactly (f i)) -> vec_holds m y (fun i => exactly (g i)) -> vwritable z -> allocated m (vcells z) ->
  disjoint (mcells_on A (stored t d)) (vcells z) -> disjoint (vcells x) (vcells z) -> disjoint_or_aligned_v y z ->
  succeeds (triangular_matrix_vector_product_upd A t d x y z) m (fun _ m' =>
    (exists r, vec_holds m' z r /\ forall i, i < vext z -> all_values (r i) (tri_accurate (ext1 A + 1) t d (ext1 A) i (g i) a f)) /\
    changes_only m m' (vcells z)).
Proof. exact (@trmv_upd_fma). Qed.
Print Assumptions C91_trmv_upd.

Example C91_trmv_upd_case :
  let m := fma_mem in
  let A : mat FM := (row_major 0 2 2) in
  let t := Lower in
  let d := Explicit in
  let x : vec FM := (vec_at 8 2) in
  let y : vec FM := (vec_at 10 2) in
  let z : vec FM := (vec_at 12 2) in
  let a := (fm [[fl 1 (-1); fl 3 0]; [fl 5 (-60); fl 1 0]]) in
  let f := (fv [fl 1 0; fl 1 (-54)]) in
  let g := (fv [fl 3 0; fl 5 (-1)]) in
  succeeds (triangular_matrix_vector_product_upd A t d x y z) m (fun _ m' =>
    (exists r, vec_holds m' z r /\ forall i, i < vext z -> all_values (r i) (tri_accurate (ext1 A + 1) t d (ext1 A) i (g i) a f)) /\
    changes_only m m' (vcells z)).
Proof.
  intros m A t d x y z a f g. apply (C91_trmv_upd 53 1024 prec53 emax1024 m A t d x y z a f g);
    unfold m, A, t, d, x, y, z, a, f, g, fma_mem; match goal with |- fits _ _ => vm_compute; split; discriminate | _ => concrete end.
Qed.

(** C = A B, A triangular *)
Theorem C91_trmm_left : forall prec emax (Hp : Prec_gt_0 prec) (He : Prec_lt_emax prec emax) ty (m : mem (fma_ops prec emax Hp He)) A t d B C (a : nat -> nat -> binary_float prec emax) (b : nat -> nat -> binary_float prec emax),
  fits ty (ext0 C) ->
  ext0 A = ext1 A -> ext0 C = ext0 A -> ext1 A = ext0 B -> ext1 C = ext1 B ->
  mat_holds_on m A (stored t d) (fun i j => exactly (a i j)) -> mat_holds m B (fun i j => exactly (b i j)) -> mwritable C -> allocated m (mcells C) ->
  disjoint (mcells_on A (stored t d)) (mcells C) -> disjoint (mcells B) (mcells C) ->
  succeeds (triangular_matrix_product_left ty A t d B C) m (fun _ m' =>
    (exists r, mat_holds m' C r /\ forall i j, i < ext0 C -> j < ext1 C ->
       all_values (r i j) (tri_accurate (ext1 A) t d (ext1 A) i (B754_zero false) a (fun k => b k j))) /\
    changes_only m m' (mcells C)).
Proof. exact (@trmm_left_fma). Qed.
Print Assumptions C91_trmm_left.

Example C91_trmm_left_case :
  let ty := I32 in
  let m := fma_mem in
  let A : mat FM := (row_major 0 2 2) in
  let t := Lower in
  let d := Explicit in
  let B : mat FM := (row_major 4 2 2) in
  let C : mat FM := (row_major 14 2 2) in
  let a := (fm [[fl 1 (-1); fl 3 0]; [fl 5 (-60); fl 1 0]]) in
  let b := (fm [[fl 1 0; fl 1 (-54)]; [fl 7 2; fl 3 (-3)]]) in
  succeeds (triangular_matrix_product_left ty A t d B C) m (fun _ m' =>
    (exists r, mat_holds m' C r /\ forall i j, i < ext0 C -> j < ext1 C ->
       all_values (r i j) (tri_accurate (ext1 A) t d (ext1 A) i (B754_zero false) a (fun k => b k j))) /\
    changes_only m m' (mcells C)).
Proof.
  intros ty m A t d B C a b. apply (C91_trmm_left 53 1024 prec53 emax1024 ty m A t d B C a b);
    unfold ty, m, A, t, d, B, C, a, b, fma_mem; match goal with |- fits _ _ => vm_compute; split; discriminate | _ => concrete end.
Qed.

(** C = B A, A triangular *)
Theorem C91_trmm_right : forall prec emax (Hp : Prec_gt_0 prec) (He : Prec_lt_emax prec emax) ty (m : mem (fma_ops prec emax Hp He)) B A t d C (a : nat -> nat -> binary_float prec emax) (b : nat -> nat -> binary_float prec emax),
  fits ty (ext1 C) ->
  ext0 A = ext1 A -> ext0 C = ext0 B -> ext1 B = ext0 A -> ext1 C = ext1 A ->
  mat_holds_on m A (stored t d) (fun i j => exactly (a i j)) -> mat_holds m B (fun i j => exactly (b i j)) -> mwritable C -> allocated m (mcells C) ->
  disjoint (mcells_on A (stored t d)) (mcells C) -> disjoint (mcells B) (mcells C) ->
  succeeds (triangular_matrix_product_right ty B A t d C) m (fun _ m' =>
    (exists r, mat_holds m' C r /\ forall i j, i < ext0 C -> j < ext1 C ->
       all_values (r i j) (tri_accurate_r (ext1 A) t d (ext1 A) j (B754_zero false) a (b i))) /\
    changes_only m m' (mcells C)).
Proof. exact (@trmm_right_fma). Qed.
Print Assumptions C91_trmm_right.

Example C91_trmm_right_case :
  let ty := I32 in
  let m := fma_mem in
  let B : mat FM := (row_major 4 2 2) in
  let A : mat FM := (row_major 0 2 2) in
  let t := Lower in
  let d := Explicit in
  let C : mat FM := (row_major 14 2 2) in
  let a := (fm [[fl 1 (-1); fl 3 0]; [fl 5 (-60); fl 1 0]]) in
  let b := (fm [[fl 1 0; fl 1 (-54)]; [fl 7 2; fl 3 (-3)]]) in
  succeeds (triangular_matrix_product_right ty B A t d C) m (fun _ m' =>
    (exists r, mat_holds m' C r /\ forall i j, i < ext0 C -> j < ext1 C ->
       all_values (r i j) (tri_accurate_r (ext1 A) t d (ext1 A) j (B754_zero false) a (b i))) /\
    changes_only m m' (mcells C)).
Proof.
  intros ty m B A t d C a b. apply (C91_trmm_right 53 1024 prec53 emax1024 ty m B A t d C a b);
    unfold ty, m, B, A, t, d, C, a, b, fma_mem; match goal with |- fits _ _ => vm_compute; split; discriminate | _ => concrete end.
Qed.

(** A += x y^T *)
Theorem C91_ger : forall prec emax (Hp : Prec_gt_0 prec) (He : Prec_lt_emax prec emax) (m : mem (fma_ops prec emax Hp He)) x y A (a : nat -> nat -> binary_float prec emax) (f : nat -> binary_float prec emax) (g : nat -> binary_float prec emax),
  vext x = ext0 A -> vext y = ext1 A ->
  mat_holds m A (fun i j => exactly (a i j)) -> vec_holds m x (fun i => exactly (f i)) -> vec_holds m y (fun i => exactly (g i)) -> mwritable A ->
  disjoint (vcells x) (mcells A) -> disjoint (vcells y) (mcells A) ->
  succeeds (matrix_rank_1_update x y A) m (fun _ m' =>
    (exists r, mat_holds m' A r /\ forall i j, i < ext0 A -> j < ext1 A ->
       all_values (r i j) (approximates 2 (is_finite (a i j) = true /\ is_finite (f i) = true /\ is_finite (g j) = true)
         (B2R (a i j) + B2R (f i) * B2R (g j))%R (Rabs (B2R (a i j)) + Rabs (B2R (f i)) * Rabs (B2R (g j)))%R (half_tiny prec emax))) /\
    changes_only m m' (mcells A)).
Proof. exact (@ger_fma). Qed.
Print Assumptions C91_ger.

Example C91_ger_case :
  let m := fma_mem in
  let x : vec FM := (vec_at 8 2) in
  let y : vec FM := (vec_at 10 2) in
  let A : mat FM := (row_major 0 2 2) in
  let a := (fm [[fl 1 (-1); fl 3 0]; [fl 5 (-60); fl 1 0]]) in
  let f := (fv [fl 1 0; fl 1 (-54)]) in
  let g := (fv [fl 3 0; fl 5 (-1)]) in
  succeeds (matrix_rank_1_update x y A) m (fun _ m' =>
    (exists r, mat_holds m' A r /\ forall i j, i < ext0 A -> j < ext1 A ->
       all_values (r i j) (approximates 2 (is_finite (a i j) = true /\ is_finite (f i) = true /\ is_finite (g j) = true)
         (B2R (a i j) + B2R (f i) * B2R (g j))%R (Rabs (B2R (a i j)) + Rabs (B2R (f i)) * Rabs (B2R (g j)))%R (half_tiny 53 1024))) /\
    changes_only m m' (mcells A)).
Proof.
  intros m x y A a f g. apply (C91_ger 53 1024 prec53 emax1024 m x y A a f g);
    unfold m, x, y, A, a, f, g, fma_mem; match goal with |- fits _ _ => vm_compute; split; discriminate | _ => concrete end.
Qed.

(** A += x x^T on one triangle *)
Theorem C91_syr : forall prec emax (Hp : Prec_gt_0 prec) (He : Prec_lt_emax prec emax) (m : mem (fma_ops prec emax Hp He)) x A t (a : nat -> nat -> binary_float prec emax) (f : nat -> binary_float prec emax),
  ext0 A = ext1 A -> vext x = ext0 A ->
  mat_holds_on m A (in_tri t) (fun i j => exactly (a i j)) -> vec_holds m x (fun i => exactly (f i)) -> mwritable_on A (in_tri t) ->
  disjoint (vcells x) (mcells_on A (in_tri t)) ->
  succeeds (symmetric_matrix_rank_1_update x A t) m (fun _ m' =>
    (exists r, mat_holds_on m' A (in_tri t) r /\ forall i j, i < ext0 A -> j < ext1 A -> in_tri t i j ->
       all_values (r i j) (approximates 2 (is_finite (a i j) = true /\ is_finite (f i) = true /\ is_finite (f j) = true)
         (B2R (a i j) + B2R (f i) * B2R (f j))%R (Rabs (B2R (a i j)) + Rabs (B2R (f i)) * Rabs (B2R (f j)))%R (half_tiny prec emax))) /\
    changes_only m m' (mcells_on A (in_tri t))).
Proof. exact (@syr_fma). Qed.
Print Assumptions C91_syr.

Example C91_syr_case :
  let m := fma_mem in
  let x : vec FM := (vec_at 8 2) in
  let A : mat FM := (row_major 0 2 2) in
  let t := Lower in
  let a := (fm [[fl 1 (-1); fl 3 0]; [fl 5 (-60); fl 1 0]]) in
  let f := (fv [fl 1 0; fl 1 (-54)]) in
  succeeds (symmetric_matrix_rank_1_update x A t) m (fun _ m' =>
    (exists r, mat_holds_on m' A (in_tri t) r /\ forall i j, i < ext0 A -> j < ext1 A -> in_tri t i j ->
       all_values (r i j) (approximates 2 (is_finite (a i j) = true /\ is_finite (f i) = true /\ is_finite (f j) = true)
         (B2R (a i j) + B2R (f i) * B2R (f j))%R (Rabs (B2R (a i j)) + Rabs (B2R (f i)) * Rabs (B2R (f j)))%R (half_tiny 53 1024))) /\
    changes_only m m' (mcells_on A (in_tri t))).
Proof.
  intros m x A t a f. apply (C91_syr 53 1024 prec53 emax1024 m x A t a f);
    unfold m, x, A, t, a, f, fma_mem; match goal with |- fits _ _ => vm_compute; split; discriminate | _ => concrete end.
Qed.

(** A += alpha x x^T on one triangle *)
Theorem C91_syr_alpha : forall prec emax (Hp : Prec_gt_0 prec) (He : Prec_lt_emax prec emax) (m : mem (fma_ops prec emax Hp He)) (alpha : binary_float prec emax) x A t (a : nat -> nat -> binary_float prec emax) (f : nat -> binary_float prec emax),
  ext0 A = ext1 A -> vext x = ext0 A ->
  mat_holds_on m A (in_tri t) (fun i j => exactly (a i j)) -> vec_holds m x (fun i => exactly (f i)) -> mwritable_on A (in_tri t) ->
  disjoint (vcells x) (mcells_on A (in_tri t)) ->
  succeeds (symmetric_matrix_rank_1_update_alpha (exactly alpha : (fma_ops prec emax Hp He)) x A t) m (fun _ m' =>
    (exists r, mat_holds_on m' A (in_tri t) r /\ forall i j, i < ext0 A -> j < ext1 A -> in_tri t i j ->
       all_values (r i j) (approximates 3 (is_finite (a i j) = true /\ is_finite alpha = true /\ is_finite (f i) = true /\ is_finite (f j) = true /\
           is_finite (Bmult mode_NE alpha (f i)) = true)
         (B2R (a i j) + B2R alpha * B2R (f i) * B2R (f j))%R (Rabs (B2R (a i j)) + Rabs (B2R alpha) * Rabs (B2R (f i)) * Rabs (B2R (f j)))%R
         ((half_tiny prec emax) * Rabs (B2R (f j)) + (half_tiny prec emax))%R)) /\
    changes_only m m' (mcells_on A (in_tri t))).
Proof. exact (@syr_alpha_fma). Qed.
Print Assumptions C91_syr_alpha.

Example C91_syr_alpha_case :
  let m := fma_mem in
  let alpha := (fl 3 (-1)) in
  let x : vec FM := (vec_at 8 2) in
  let A : mat FM := (row_major 0 2 2) in
  let t := Lower in
  let a := (fm [[fl 1 (-1); fl 3 0]; [fl 5 (-60); fl 1 0]]) in
  let f := (fv [fl 1 0; fl 1 (-54)]) in
  succeeds (symmetric_matrix_rank_1_update_alpha (exactly alpha : FM) x A t) m (fun _ m' =>
    (exists r, mat_holds_on m' A (in_tri t) r /\ forall i j, i < ext0 A -> j < ext1 A -> in_tri t i j ->
       all_values (r i j) (approximates 3 (is_finite (a i j) = true /\ is_finite alpha = true /\ is_finite (f i) = true /\ is_finite (f j) = true /\
           is_finite (Bmult mode_NE alpha (f i)) = true)
         (B2R (a i j) + B2R alpha * B2R (f i) * B2R (f j))%R (Rabs (B2R (a i j)) + Rabs (B2R alpha) * Rabs (B2R (f i)) * Rabs (B2R (f j)))%R
         ((half_tiny 53 1024) * Rabs (B2R (f j)) + (half_tiny 53 1024))%R)) /\
    changes_only m m' (mcells_on A (in_tri t))).
Proof.
  intros m alpha x A t a f. apply (C91_syr_alpha 53 1024 prec53 emax1024 m alpha x A t a f);
    unfold m, alpha, x, A, t, a, f, fma_mem; match goal with |- fits _ _ => vm_compute; split; discriminate | _ => concrete end.
Qed.

(** A += x y^T + y x^T on one triangle *)
Theorem C91_syr2 : forall prec emax (Hp : Prec_gt_0 prec) (He : Prec_lt_emax prec emax) (m : mem (fma_ops prec emax Hp He)) x y A t (a : nat -> nat -> binary_float prec emax) (f : nat -> binary_float prec emax) (g : nat -> binary_float prec emax),
  ext0 A = ext1 A -> vext x = ext0 A -> vext y = ext0 A ->
  mat_holds_on m A (in_tri t) (fun i j => exactly (a i j)) -> vec_holds m x (fun i => exactly (f i)) -> vec_holds m y (fun i => exactly (g i)) -> mwritable_on A (in_tri t) ->
  disjoint (vcells x) (mcells_on A (in_tri t)) -> disjoint (vcells y) (mcells_on A (in_tri t)) ->
  succeeds (symmetric_matrix_rank_2_update x y A t) m (fun _ m' =>
    (exists r, mat_holds_on m' A (in_tri t) r /\ forall i j, i < ext0 A -> j < ext1 A -> in_tri t i j ->
       all_values (r i j) (approximates 3 (is_finite (a i j) = true /\ is_finite (f i) = true /\ is_finite (g j) = true /\ is_finite (g i) = true /\ is_finite (f j) = true)
         (B2R (a i j) + (B2R (f i) * B2R (g j) + B2R (g i) * B2R (f j)))%R
         (Rabs (B2R (a i j)) + (Rabs (B2R (f i)) * Rabs (B2R (g j)) + Rabs (B2R (g i)) * Rabs (B2R (f j))))%R (2 * (half_tiny prec emax))%R)) /\
    changes_only m m' (mcells_on A (in_tri t))).
Proof. exact (@syr2_fma). Qed.
Print Assumptions C91_syr2.

Example C91_syr2_case :
  let m := fma_mem in
  let x : vec FM := (vec_at 8 2) in
  let y : vec FM := (vec_at 10 2) in
  let A : mat FM := (row_major 0 2 2) in
  let t := Lower in
  let a := (fm [[fl 1 (-1); fl 3 0]; [fl 5 (-60); fl 1 0]]) in
  let f := (fv [fl 1 0; fl 1 (-54)]) in
  let g := (fv [fl 3 0; fl 5 (-1)]) in
  succeeds (symmetric_matrix_rank_2_update x y A t) m (fun _ m' =>
    (exists r, mat_holds_on m' A (in_tri t) r /\ forall i j, i < ext0 A -> j < ext1 A -> in_tri t i j ->
       all_values (r i j) (approximates 3 (is_finite (a i j) = true /\ is_finite (f i) = true /\ is_finite (g j) = true /\ is_finite (g i) = true /\ is_finite (f j) = true)
         (B2R (a i j) + (B2R (f i) * B2R (g j) + B2R (g i) * B2R (f j)))%R
         (Rabs (B2R (a i j)) + (Rabs (B2R (f i)) * Rabs (B2R (g j)) + Rabs (B2R (g i)) * Rabs (B2R (f j))))%R (2 * (half_tiny 53 1024))%R)) /\
    changes_only m m' (mcells_on A (in_tri t))).
Proof.
  intros m x y A t a f g. apply (C91_syr2 53 1024 prec53 emax1024 m x y A t a f g);
    unfold m, x, y, A, t, a, f, g, fma_mem; match goal with |- fits _ _ => vm_compute; split; discriminate | _ => concrete end.
Qed.

(** C += A A^T on one triangle *)
Theorem C91_syrk : forall prec emax (Hp : Prec_gt_0 prec) (He : Prec_lt_emax prec emax) (m : mem (fma_ops prec emax Hp He)) A C t (a : nat -> nat -> binary_float prec emax) (c : nat -> nat -> binary_float prec emax),
  ext0 C = ext1 C -> ext0 A = ext0 C ->
  mat_holds m A (fun i j => exactly (a i j)) -> mat_holds_on m C (in_tri t) (fun i j => exactly (c i j)) -> mwritable_on C (in_tri t) ->
  disjoint (mcells A) (mcells_on C (in_tri t)) ->
  succeeds (symmetric_matrix_rank_k_update A C t) m (fun _ m' =>
    (exists r, mat_holds_on m' C (in_tri t) r /\ forall i j, i < ext0 C -> j < ext1 C -> in_tri t i j ->
       all_values (r i j) (dot_accurate (ext1 A + 1) (ext1 A) (c i j) (a i) (a j))) /\
    changes_only m m' (mcells_on C (in_tri t))).
Proof. exact (@syrk_fma). Qed.
Print Assumptions C91_syrk.

Example C91_syrk_case :
  let m := fma_mem in
  let A : mat FM := (row_major 0 2 2) in
  let C : mat FM := (row_major 14 2 2) in
  let t := Lower in
  let a := (fm [[fl 1 (-1); fl 3 0]; [fl 5 (-60); fl 1 0]]) in
  let c := (fm [[fl 7 0; fl 1 30]; [fl 1 1; fl 9 0]]) in
  succeeds (symmetric_matrix_rank_k_update A C t) m (fun _ m' =>
    (exists r, mat_holds_on m' C (in_tri t) r /\ forall i j, i < ext0 C -> j < ext1 C -> in_tri t i j ->
       all_values (r i j) (dot_accurate (ext1 A + 1) (ext1 A) (c i j) (a i) (a j))) /\
    changes_only m m' (mcells_on C (in_tri t))).
Proof.
  intros m A C t a c. apply (C91_syrk 53 1024 prec53 emax1024 m A C t a c);
    unfold m, A, C, t, a, c, fma_mem; match goal with |- fits _ _ => vm_compute; split; discriminate | _ => concrete end.
Qed.

(** C += alpha A A^T on one triangle *)
Theorem C91_syrk_alpha : forall prec emax (Hp : Prec_gt_0 prec) (He : Prec_lt_emax prec emax) (m : mem (fma_ops prec emax Hp He)) (alpha : binary_float prec emax) A C t (a : nat -> nat -> binary_float prec emax) (c : nat -> nat -> binary_float prec emax),
  ext0 C = ext1 C -> ext0 A = ext0 C ->
  mat_holds m A (fun i j => exactly (a i j)) -> mat_holds_on m C (in_tri t) (fun i j => exactly (c i j)) -> mwritable_on C (in_tri t) ->
  disjoint (mcells A) (mcells_on C (in_tri t)) ->
  succeeds (symmetric_matrix_rank_k_update_alpha (exactly alpha : (fma_ops prec emax Hp He)) A C t) m (fun _ m' =>
    (exists r, mat_holds_on m' C (in_tri t) r /\ forall i j, i < ext0 C -> j < ext1 C -> in_tri t i j ->
       all_values (r i j) (approximates (ext1 A + 2) (is_finite (c i j) = true /\ (0 < ext1 A -> is_finite alpha = true) /\ all_finite (ext1 A) (a i) /\ all_finite (ext1 A) (a j) /\
           all_finite (ext1 A) (fun k => Bmult mode_NE alpha (a i k)))
         (B2R (c i j) + rsum (ext1 A) (fun k => B2R alpha * B2R (a i k) * B2R (a j k)))%R
         (Rabs (B2R (c i j)) + rsum (ext1 A) (fun k => Rabs (B2R alpha) * Rabs (B2R (a i k)) * Rabs (B2R (a j k))))%R
         (rsum (ext1 A) (fun k => (half_tiny prec emax) * Rabs (B2R (a j k)) + (half_tiny prec emax)))%R)) /\
    changes_only m m' (mcells_on C (in_tri t))).
Proof. exact (@syrk_alpha_fma). Qed.
Print Assumptions C91_syrk_alpha.

Example C91_syrk_alpha_case :
  let m := fma_mem in
  let alpha := (fl 3 (-1)) in
  let A : mat FM := (row_major 0 2 2) in
  let C : mat FM := (row_major 14 2 2) in
  let t := Lower in
  let a := (fm [[fl 1 (-1); fl 3 0]; [fl 5 (-60); fl 1 0]]) in
  let c := (fm [[fl 7 0; fl 1 30]; [fl 1 1; fl 9 0]]) in
  succeeds (symmetric_matrix_rank_k_update_alpha (exactly alpha : FM) A C t) m (fun _ m' =>
    (exists r, mat_holds_on m' C (in_tri t) r /\ forall i j, i < ext0 C -> j < ext1 C -> in_tri t i j ->
       all_values (r i j) (approximates (ext1 A + 2) (is_finite (c i j) = true /\ (0 < ext1 A -> is_finite alpha = true) /\ all_finite (ext1 A) (a i) /\ all_finite (ext1 A) (a j) /\
           all_finite (ext1 A) (fun k => Bmult mode_NE alpha (a i k)))
         (B2R (c i j) + rsum (ext1 A) (fun k => B2R alpha * B2R (a i k) * B2R (a j k)))%R
         (Rabs (B2R (c i j)) + rsum (ext1 A) (fun k => Rabs (B2R alpha) * Rabs (B2R (a i k)) * Rabs (B2R (a j k))))%R
         (rsum (ext1 A) (fun k => (half_tiny 53 1024) * Rabs (B2R (a j k)) + (half_tiny 53 1024)))%R)) /\
    changes_only m m' (mcells_on C (in_tri t))).
Proof.
  intros m alpha A C t a c. apply (C91_syrk_alpha 53 1024 prec53 emax1024 m alpha A C t a c);
    unfold m, alpha, A, C, t, a, c, fma_mem; match goal with |- fits _ _ => vm_compute; split; discriminate | _ => concrete end.
Qed.

(** C += A B^T + B A^T on one triangle *)
Theorem C91_syr2k : forall prec emax (Hp : Prec_gt_0 prec) (He : Prec_lt_emax prec emax) (m : mem (fma_ops prec emax Hp He)) A B C t (a : nat -> nat -> binary_float prec emax) (b : nat -> nat -> binary_float prec emax) (c : nat -> nat -> binary_float prec emax),
  ext0 C = ext1 C -> ext0 A = ext0 C -> ext0 B = ext0 C -> ext1 B = ext1 A ->
  mat_holds m A (fun i j => exactly (a i j)) -> mat_holds m B (fun i j => exactly (b i j)) -> mat_holds_on m C (in_tri t) (fun i j => exactly (c i j)) -> mwritable_on C (in_tri t) ->
  disjoint (mcells A) (mcells_on C (in_tri t)) -> disjoint (mcells B) (mcells_on C (in_tri t)) ->
  succeeds (symmetric_matrix_rank_2k_update A B C t) m (fun _ m' =>
    (exists r, mat_holds_on m' C (in_tri t) r /\ forall i j, i < ext0 C -> j < ext1 C -> in_tri t i j ->
       all_values (r i j) (approximates (ext1 A + 2) (is_finite (c i j) = true /\ all_finite (ext1 A) (a i) /\ all_finite (ext1 A) (b j) /\ all_finite (ext1 A) (b i) /\ all_finite (ext1 A) (a j))
         (B2R (c i j) + rsum (ext1 A) (fun k => B2R (a i k) * B2R (b j k) + B2R (b i k) * B2R (a j k)))%R
         (Rabs (B2R (c i j)) + rsum (ext1 A) (fun k => Rabs (B2R (a i k)) * Rabs (B2R (b j k)) + Rabs (B2R (b i k)) * Rabs (B2R (a j k))))%R
         (INR (ext1 A) * (2 * (half_tiny prec emax)))%R)) /\
    changes_only m m' (mcells_on C (in_tri t))).
Proof. exact (@syr2k_fma). Qed.
Print Assumptions C91_syr2k.

Example C91_syr2k_case :
  let m := fma_mem in
  let A : mat FM := (row_major 0 2 2) in
  let B : mat FM := (row_major 4 2 2) in
  let C : mat FM := (row_major 14 2 2) in
  let t := Lower in
  let a := (fm [[fl 1 (-1); fl 3 0]; [fl 5 (-60); fl 1 0]]) in
  let b := (fm [[fl 1 0; fl 1 (-54)]; [fl 7 2; fl 3 (-3)]]) in
  let c := (fm [[fl 7 0; fl 1 30]; [fl 1 1; fl 9 0]]) in
  succeeds (symmetric_matrix_rank_2k_update A B C t) m (fun _ m' =>
    (exists r, mat_holds_on m' C (in_tri t) r /\ forall i j, i < ext0 C -> j < ext1 C -> in_tri t i j ->
       all_values (r i j) (approximates (ext1 A + 2) (is_finite (c i j) = true /\ all_finite (ext1 A) (a i) /\ all_finite (ext1 A) (b j) /\ all_finite (ext1 A) (b i) /\ all_finite (ext1 A) (a j))
         (B2R (c i j) + rsum (ext1 A) (fun k => B2R (a i k) * B2R (b j k) + B2R (b i k) * B2R (a j k)))%R
         (Rabs (B2R (c i j)) + rsum (ext1 A) (fun k => Rabs (B2R (a i k)) * Rabs (B2R (b j k)) + Rabs (B2R (b i k)) * Rabs (B2R (a j k))))%R
         (INR (ext1 A) * (2 * (half_tiny 53 1024)))%R)) /\
    changes_only m m' (mcells_on C (in_tri t))).
Proof.
  intros m A B C t a b c. apply (C91_syr2k 53 1024 prec53 emax1024 m A B C t a b c);
    unfold m, A, B, C, t, a, b, c, fma_mem; match goal with |- fits _ _ => vm_compute; split; discriminate | _ => concrete end.
Qed.

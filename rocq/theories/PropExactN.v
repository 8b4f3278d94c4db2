(** C109: sums of magnitudes and the matrix norms that add magnitudes are exact on integers. *)
From Coq Require Import List Arith ZArith Reals Lia Bool.
From Flocq Require Import Core.Core IEEE754.BinarySingleNaN.
From Verif Require Import Mem Scalar View Spec SpecI SpecR SpecExact SpecExactN Norm Ieee PfExactI PfExactN Inst PropFloat PropNormF.
Import ListNotations.
Local Open Scope nat_scope.

(** Used below, in binary64: the matrix [2 -7; -5 3], or the vector (2, -7, -5, 3); initial value 4. *)
Definition norm_data : list F64 := [fl 2 0; fl (-7) 0; fl (-5) 0; fl 3 0]. (* test data *)
Definition nz (i j : nat) : Z := nth j (nth i [[2; 7]; [5; 3]]%Z []) 0%Z. (* test data *)
Ltac small := first [apply norm_int | apply int_abs, norm_int]; vm_compute; discriminate.
Ltac each4 := intros i Hi; simpl in Hi; destruct i as [|[|[|[|i]]]]; [| | | |exfalso; clear - Hi; lia].

(** sum of |x_i| *)
Theorem C109_abs_sum : forall prec emax (Hp : FLX.Prec_gt_0 prec) (He : Prec_lt_emax prec emax) (O : ops)
    (M : mags O (ieee_r prec emax Hp He)) (m : mem O) x f (init : binary_float prec emax) q z, arithmetic M = true -> vec_holds m x f -> int_valued init z ->
  (forall i, i < vext x -> int_valued (eabs M (f i) : binary_float prec emax) (q i)) -> (forall i, i < vext x -> (0 <= q i)%Z) ->
  fits_in prec (Z.abs z + zsum (vext x) q) ->
  returns (vector_abs_sum M x init) m (fun r : binary_float prec emax => int_valued r (z + zsum (vext x) q)).
Proof. exact (@abs_sum_int). Qed.
Print Assumptions C109_abs_sum.
Example C109_abs_sum_case : returns (vector_abs_sum dmag (vec_at 0 4) (fl 4 0)) (mem_of norm_data) (fun r : binary_float 53 1024 => int_valued r 21).
Proof.
  apply (C109_abs_sum 53 1024 prec53 emax1024 F64 dmag (mem_of norm_data) (vec_at 0 4) (fun i => nth i norm_data (fl 0 0)) (fl 4 0) (fun i => nth i [2; 7; 5; 3]%Z 0%Z) 4).
  - reflexivity.
  - unfold norm_data. concrete.
  - small.
  - each4; [apply (int_abs 53 1024 _ 2)|apply (int_abs 53 1024 _ (-7))|apply (int_abs 53 1024 _ (-5))|apply (int_abs 53 1024 _ 3)]; small.
  - each4; vm_compute; discriminate.
  - vm_compute. discriminate.
Qed.

(** Complex elements: sum of |Re x_i| + |Im x_i| *)
Theorem C109_abs_sum_complex : forall prec emax (Hp : FLX.Prec_gt_0 prec) (He : Prec_lt_emax prec emax) (O : ops)
    (M : mags O (ieee_r prec emax Hp He)) (m : mem O) x f (init : binary_float prec emax) (p q : nat -> Z) z, arithmetic M = false -> vec_holds m x f -> int_valued init z ->
  (forall i, i < vext x -> int_valued (ereal M (f i) : binary_float prec emax) (p i) /\ int_valued (eimag M (f i) : binary_float prec emax) (q i)) ->
  fits_in prec (Z.abs z + zsum (vext x) (fun i => Z.abs (p i) + Z.abs (q i)))%Z ->
  returns (vector_abs_sum M x init) m (fun r : binary_float prec emax => int_valued r (z + zsum (vext x) (fun i => Z.abs (p i) + Z.abs (q i)))%Z).
Proof. exact (@abs_sum_c_int). Qed.
Print Assumptions C109_abs_sum_complex.
Example C109_abs_sum_complex_case : returns (vector_abs_sum cmag64 (vec_at 0 2) (fl 4 0)) (mem_of [((fl 3 0, fl (-4) 0) : CF64); (fl (-6) 0, fl 5 0)])
  (fun r : binary_float 53 1024 => int_valued r 22).
Proof.
  apply (C109_abs_sum_complex 53 1024 prec53 emax1024 CF64 cmag64 (mem_of [((fl 3 0, fl (-4) 0) : CF64); (fl (-6) 0, fl 5 0)]) (vec_at 0 2)
    (fun i => nth i [((fl 3 0, fl (-4) 0) : CF64); (fl (-6) 0, fl 5 0)] (fl 0 0, fl 0 0)) (fl 4 0) (fun i => nth i [3; -6]%Z 0%Z) (fun i => nth i [-4; 5]%Z 0%Z) 4).
  - reflexivity.
  - concrete.
  - small.
  - intros [|[|i]] Hi; [| |exfalso; simpl in Hi; lia]; split; small.
  - vm_compute. discriminate.
Qed.

(** largest sum of magnitudes of a row *)
Theorem C109_inf_norm : forall prec emax (Hp : FLX.Prec_gt_0 prec) (He : Prec_lt_emax prec emax) (O : ops)
    (M : mags O (ieee_r prec emax Hp He)) (m : mem O) A a (init : binary_float prec emax) q z, mat_holds m A a -> int_valued init z ->
  (forall i j, i < ext0 A -> j < ext1 A -> int_valued (eabs M (a i j) : binary_float prec emax) (q i j) /\ (0 <= q i j)%Z) ->
  (forall i, i < ext0 A -> fits_in prec (Z.abs z + zsum (ext1 A) (q i))) ->
  returns (matrix_inf_norm M A init) m (fun r : binary_float prec emax => int_valued r (z + zmax (ext0 A) (fun i => zsum (ext1 A) (q i)))).
Proof. exact (@inf_norm_int). Qed.
Print Assumptions C109_inf_norm.
Ltac norm_case := match goal with
  | |- mat_holds _ _ _ => unfold norm_data; concrete
  | |- int_valued _ _ => small
  | |- forall i j, _ -> _ -> int_valued _ _ /\ _ =>
      intros [|[|i]] [|[|j]] Hi Hj; try (exfalso; simpl in Hi, Hj; clear - Hi Hj; lia); (split; [|vm_compute; discriminate]);
      [apply (int_abs 53 1024 _ 2)|apply (int_abs 53 1024 _ (-7))|apply (int_abs 53 1024 _ (-5))|apply (int_abs 53 1024 _ 3)]; small
  | |- _ => intros [|[|i]] Hi; [| |exfalso; simpl in Hi; clear - Hi; lia]; vm_compute; discriminate
  end.
Example C109_inf_norm_case : returns (matrix_inf_norm dmag (row_major 0 2 2) (fl 4 0)) (mem_of norm_data) (fun r : binary_float 53 1024 => int_valued r 13).
Proof.
  apply (C109_inf_norm 53 1024 prec53 emax1024 F64 dmag (mem_of norm_data) (row_major 0 2 2) (fun i j => nth (2 * i + j) norm_data (fl 0 0)) (fl 4 0) nz 4); norm_case.
Qed.

(** largest sum of magnitudes of a column *)
Theorem C109_one_norm : forall prec emax (Hp : FLX.Prec_gt_0 prec) (He : Prec_lt_emax prec emax) (O : ops)
    (M : mags O (ieee_r prec emax Hp He)) (m : mem O) A a (init : binary_float prec emax) q z, mat_holds m A a -> int_valued init z ->
  (forall i j, i < ext0 A -> j < ext1 A -> int_valued (eabs M (a i j) : binary_float prec emax) (q i j) /\ (0 <= q i j)%Z) ->
  (forall j, j < ext1 A -> fits_in prec (Z.abs z + zsum (ext0 A) (fun i => q i j))) ->
  returns (matrix_one_norm M A init) m (fun r : binary_float prec emax => int_valued r (z + zmax (ext1 A) (fun j => zsum (ext0 A) (fun i => q i j)))).
Proof. exact (@one_norm_int). Qed.
Print Assumptions C109_one_norm.
Example C109_one_norm_case : returns (matrix_one_norm dmag (row_major 0 2 2) (fl 4 0)) (mem_of norm_data) (fun r : binary_float 53 1024 => int_valued r 14).
Proof.
  apply (C109_one_norm 53 1024 prec53 emax1024 F64 dmag (mem_of norm_data) (row_major 0 2 2) (fun i j => nth (2 * i + j) norm_data (fl 0 0)) (fl 4 0) nz 4); norm_case.
Qed.

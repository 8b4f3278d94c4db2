(** C62-C65: norms and sums of magnitudes in IEEE 754 arithmetic: accuracy, overflow, NaN and infinity; Kokkos reductions.
    They hold for every IEEE 754 binary format: precision [prec], largest exponent [emax] (53 and 1024 for double). *)
From Coq Require Import List Arith ZArith NArith Reals Lia Lra Bool Permutation.
From Flocq Require Import Core.Core IEEE754.BinarySingleNaN.
From Verif Require Import Mem Scalar View Spec SpecR SpecF SpecK Norm Ieee Blas1 Wp KK Red KKNorm
  PfNorm PfIeeeNorm PfIeeeNan PfIeeeNan2 PfIeeeSum PfIdxNan PfRed PfIeeeRed Inst PropFloat.
Import ListNotations.
Local Open Scope R_scope.

(** Magnitudes of double: std::abs. *)
Definition R64 : rops := ieee_r 53 1024 prec53 emax1024.
Definition dmag : mags F64 R64 := @Mags F64 R64 true (@Babs 53 1024) (fun x => x) (fun _ => B754_zero false).
Definition pinf : F64 := (B754_infinity false : binary_float 53 1024).
Definition minf : F64 := (B754_infinity true : binary_float 53 1024).
Definition qnan : F64 := (B754_nan : binary_float 53 1024).
(** Outcome of a computation on doubles, comparable without proof terms. *)
Definition out64 {T} (o : res T (binary_float 53 1024)) : option SpecFloat.spec_float :=
  match o with Ok r _ => Some (B2SF r) | Err _ _ => None end.

Lemma out64_ok : forall {T} (p : prog T (binary_float 53 1024)) m s (Q : binary_float 53 1024 -> Prop),
  out64 (run p m) = Some s -> returns p m Q -> returns p m (fun r => B2SF r = s /\ Q r).
Proof. intros T p m s Q H (r & Hr & HQ). exists r. split; auto. rewrite Hr in H. injection H as H. auto. Qed.
Lemma max64 : 64 <= max_finite 53 1024.
Proof.
  unfold max_finite. assert (bpow radix2 (1024 - 53) <= bpow radix2 1023) by (apply bpow_le; lia).
  assert (bpow radix2 1024 = 2 * bpow radix2 1023) by (change 1024%Z with (1 + 1023)%Z; rewrite bpow_plus; reflexivity).
  assert (64 <= bpow radix2 1023) by (change 64 with (bpow radix2 6); apply bpow_le; lia). lra.
Qed.
Lemma u64 : 0 <= unit_roundoff 53 <= / 2.
Proof.
  unfold unit_roundoff. split; [apply bpow_ge_0|]. change (/ 2) with (bpow radix2 (-1)). apply bpow_le. lia.
Qed.
Lemma ssq64 : (1 + INR 2) * (1 + unit_roundoff 53) ^ 2 <= max_finite 53 1024.
Proof. pose proof max64. pose proof u64. simpl. nra. Qed.

(** * C62: accuracy of the scaled sum of squares and of the 2-norm *)
Theorem C62_sum_of_squares : forall prec emax (Hp : Prec_gt_0 prec) (He : Prec_lt_emax prec emax) (O : ops)
    (M : mags O (ieee_r prec emax Hp He)) (m : mem O) x f (init : @sum_of_squares_result (ieee_r prec emax Hp He)),
  let s0 := B2R (scaled_sum_of_squares init : binary_float prec emax) in
  let c0 := B2R (scaling_factor init : binary_float prec emax) in
  vec_holds m x f -> good_mags M (vext x) f ->
  is_finite (scaling_factor init : binary_float prec emax) = true ->
  is_finite (scaled_sum_of_squares init : binary_float prec emax) = true -> 0 <= c0 -> 1 <= s0 ->
  (s0 + INR (vext x)) * (1 + unit_roundoff prec) ^ vext x <= max_finite prec emax ->
  returns (vector_sum_of_squares M x init) m (fun r =>
    let S := s0 * (c0 * c0) + rsum (vext x) (fun i => fmag M (f i) * fmag M (f i)) in
    let s := B2R (scaled_sum_of_squares r : binary_float prec emax) in
    let c := B2R (scaling_factor r : binary_float prec emax) in
    is_finite (scaling_factor r : binary_float prec emax) = true /\
    is_finite (scaled_sum_of_squares r : binary_float prec emax) = true /\
    c = Rmax c0 (rmax0 (vext x) (fun i => fmag M (f i))) /\ 1 <= s /\
    Rabs (s * (c * c) - S) <= ssq_err prec emax (vext x) s0 * S).
Proof. exact (@ssq_float). Qed.
Print Assumptions C62_sum_of_squares.

(** The squares of these elements overflow; the result does not. *)
Example C62_sum_of_squares_case :
  let m : mem F64 := mem_of [fl 3 600; fl (-4) 600] in
  good_mags dmag 2 (fv [fl 3 600; fl (-4) 600]) /\
  returns (vector_sum_of_squares dmag (vec_at 0 2) (@Ssq R64 (B754_zero false) (@Bone 53 1024 prec53 emax1024))) m (fun r =>
    is_finite (scaled_sum_of_squares r : binary_float 53 1024) = true /\
    B2R (scaling_factor r : binary_float 53 1024) = Rmax 0 (rmax0 2 (fun i => fmag dmag (fv [fl 3 600; fl (-4) 600] i)))).
Proof.
  intros.
  assert (G : good_mags dmag 2 (fv [fl 3 600; fl (-4) 600])).
  { intros [|[|i]] Hi; [| |lia]; (split; [vm_compute; reflexivity|]);  cbn [dmag eabs]; rewrite B2R_Babs; apply Rabs_pos. }
  split; [exact G|].
  destruct (C62_sum_of_squares 53 1024 prec53 emax1024 F64 dmag m (vec_at 0 2) (fv [fl 3 600; fl (-4) 600])
    (@Ssq R64 (B754_zero false) (@Bone 53 1024 prec53 emax1024))) as (r & Hr & K1 & K2 & K3 & _); cbn [scaling_factor scaled_sum_of_squares]; auto.
  - concrete.
  - simpl; lra.
  - rewrite Bone_correct; lra.
  - rewrite Bone_correct. exact ssq64.
  - exists r. split; [exact Hr|]. split; [exact K2|]. exact K3.
Qed.

Theorem C62_two_norm : forall prec emax (Hp : Prec_gt_0 prec) (He : Prec_lt_emax prec emax) (O : ops)
    (M : mags O (ieee_r prec emax Hp He)) (m : mem O) x f (init : binary_float prec emax),
  vec_holds m x f -> good_mags M (vext x) f ->
  (1 + INR (vext x)) * (1 + unit_roundoff prec) ^ vext x <= max_finite prec emax ->
  returns (vector_two_norm M x init) m (fun r : binary_float prec emax =>
    let T := sqrt (rsum (vext x) (fun i => fmag M (f i) * fmag M (f i))) in
    let eps := ssq_err prec emax (vext x) 1 in
    (is_finite init = true -> Rabs (B2R init) + (1 + eps) * (1 + unit_roundoff prec) ^ 2 * T + half_tiny prec emax <= max_finite prec emax ->
       is_finite r = true) /\
    (is_finite r = true -> is_finite init = true /\
       Rabs (B2R r - (B2R init + T)) <= ((1 + eps) * (1 + unit_roundoff prec) ^ 3 - 1) * (Rabs (B2R init) + T)
                                        + (1 + unit_roundoff prec) * half_tiny prec emax)).
Proof. exact (@two_norm_init_float). Qed.
Print Assumptions C62_two_norm.

Theorem C62_two_norm_noinit : forall prec emax (Hp : Prec_gt_0 prec) (He : Prec_lt_emax prec emax) (O : ops)
    (M : mags O (ieee_r prec emax Hp He)) (m : mem O) x f,
  vec_holds m x f -> good_mags M (vext x) f ->
  (1 + INR (vext x)) * (1 + unit_roundoff prec) ^ vext x <= max_finite prec emax ->
  returns (vector_two_norm_noinit M x) m (fun r : binary_float prec emax =>
    let T := sqrt (rsum (vext x) (fun i => fmag M (f i) * fmag M (f i))) in
    let eps := ssq_err prec emax (vext x) 1 in
    ((1 + eps) * (1 + unit_roundoff prec) ^ 2 * T + half_tiny prec emax <= max_finite prec emax -> is_finite r = true) /\
    (is_finite r = true -> Rabs (B2R r - T) <= ((1 + eps) * (1 + unit_roundoff prec) ^ 2 - 1) * T + half_tiny prec emax)).
Proof. exact (@two_norm_float). Qed.
Print Assumptions C62_two_norm_noinit.

(** Elements 3 2^600 and -4 2^600, then 3 2^-600 and -4 2^-600: the squares overflow resp. underflow, the results are
    5 2^600 and 5 2^-600; and the error bound applies. *)
Example C62_two_norm_case : forall e, e = 600%Z \/ e = (-600)%Z ->
  let m : mem F64 := mem_of [fl 3 e; fl (-4) e] in let f := fv [fl 3 e; fl (-4) e] in
  let T := sqrt (rsum 2 (fun i => fmag dmag (f i) * fmag dmag (f i))) in
  let eps := ssq_err 53 1024 2 1 in
  returns (vector_two_norm_noinit dmag (vec_at 0 2)) m (fun r : binary_float 53 1024 => B2SF r = B2SF (fl 5 e) /\
    Rabs (B2R r - T) <= ((1 + eps) * (1 + unit_roundoff 53) ^ 2 - 1) * T + half_tiny 53 1024) /\
  returns (vector_two_norm dmag (vec_at 0 2) (fl 1 e)) m (fun r : binary_float 53 1024 => B2SF r = B2SF (fl 6 e) /\
    Rabs (B2R r - (B2R (fl 1 e) + T)) <= ((1 + eps) * (1 + unit_roundoff 53) ^ 3 - 1) * (Rabs (B2R (fl 1 e)) + T)
                                        + (1 + unit_roundoff 53) * half_tiny 53 1024).
Proof.
  intros e Ee m f T eps.
  assert (V : vec_holds m (vec_at 0 2) f) by concrete.
  assert (G : good_mags dmag 2 f).
  { intros i Hi. split; [|cbn [dmag eabs]; rewrite B2R_Babs; apply Rabs_pos].
    destruct Ee as [-> | ->]; destruct i as [|[|i]]; try lia; vm_compute; reflexivity. }
  split.
  - destruct (C62_two_norm_noinit 53 1024 prec53 emax1024 F64 dmag m (vec_at 0 2) f V G ssq64) as (r & Hr & _ & K).
    assert (E : B2SF (r : binary_float 53 1024) = B2SF (fl 5 e)).
    { assert (O : out64 (run (vector_two_norm_noinit dmag (vec_at 0 2)) m) = Some (B2SF (fl 5 e)))
        by (destruct Ee as [-> | ->]; vm_compute; reflexivity).
      assert (O' := eq_trans (eq_sym (f_equal (@out64 F64) Hr)) O). injection O' as O'. exact O'. }
    exists r. split; [exact Hr|]. split; [exact E|]. apply K. rewrite <- is_finite_SF_B2SF, E.
    destruct Ee as [-> | ->]; vm_compute; reflexivity.
  - destruct (C62_two_norm 53 1024 prec53 emax1024 F64 dmag m (vec_at 0 2) f (fl 1 e) V G ssq64) as (r & Hr & _ & K).
    assert (E : B2SF (r : binary_float 53 1024) = B2SF (fl 6 e)).
    { assert (O : out64 (run (vector_two_norm dmag (vec_at 0 2) (fl 1 e)) m) = Some (B2SF (fl 6 e)))
        by (destruct Ee as [-> | ->]; vm_compute; reflexivity).
      assert (O' := eq_trans (eq_sym (f_equal (@out64 F64) Hr)) O). injection O' as O'. exact O'. }
    exists r. split; [exact Hr|]. split; [exact E|]. apply K. rewrite <- is_finite_SF_B2SF, E.
    destruct Ee as [-> | ->]; vm_compute; reflexivity.
Qed.

(** * C63: NaN and infinity *)
(** A NaN among the elements (or in init) makes the 2-norm NaN. *)
Theorem C63_two_norm_nan : forall prec emax (Hp : Prec_gt_0 prec) (He : Prec_lt_emax prec emax) (O : ops)
    (M : mags O (ieee_r prec emax Hp He)) (m : mem O) x f (init : binary_float prec emax), vec_holds m x f ->
  (is_nan init = true \/ exists i, (i < vext x)%nat /\ is_nan (eabs M (f i) : binary_float prec emax) = true) ->
  returns (vector_two_norm M x init) m (fun r : binary_float prec emax => is_nan r = true).
Proof. exact (@two_norm_nan). Qed.
Print Assumptions C63_two_norm_nan.

(** A finite result means that all inputs were finite. *)
Theorem C63_two_norm_finite : forall prec emax (Hp : Prec_gt_0 prec) (He : Prec_lt_emax prec emax) (O : ops)
    (M : mags O (ieee_r prec emax Hp He)) (m : mem O) x f (init : binary_float prec emax), vec_holds m x f ->
  (forall i, (i < vext x)%nat -> Babs (eabs M (f i) : binary_float prec emax) = eabs M (f i)) ->
  returns (vector_two_norm M x init) m (fun r : binary_float prec emax => is_finite r = true ->
    is_finite init = true /\ forall i, (i < vext x)%nat -> is_finite (eabs M (f i) : binary_float prec emax) = true).
Proof. exact (@two_norm_finite_only). Qed.
Print Assumptions C63_two_norm_finite.

(** One infinite element: the norm is infinite.  Missing: several infinite elements (see the refutation). *)
Theorem C63_two_norm_inf_partial : forall prec emax (Hp : Prec_gt_0 prec) (He : Prec_lt_emax prec emax) (O : ops)
    (M : mags O (ieee_r prec emax Hp He)) (m : mem O) x f (init : binary_float prec emax) k, vec_holds m x f ->
  (k < vext x)%nat -> eabs M (f k) = (B754_infinity false : binary_float prec emax) ->
  (forall i, (i < vext x)%nat -> i <> k ->
     is_finite (eabs M (f i) : binary_float prec emax) = true /\ Babs (eabs M (f i) : binary_float prec emax) = eabs M (f i)) ->
  (1 + INR (vext x)) * (1 + unit_roundoff prec) ^ vext x <= max_finite prec emax -> is_finite init = true ->
  returns (vector_two_norm M x init) m (fun r : binary_float prec emax => r = B754_infinity false).
Proof. exact (@two_norm_one_inf). Qed.
Print Assumptions C63_two_norm_inf_partial.

(** Two infinite elements and no NaN: the norm is NaN (infinity / infinity in the scaling). *)
Theorem C63_two_norm_inf_refuted : exists (m : mem F64) x f, vec_holds m x f /\
  (forall i, (i < vext x)%nat -> is_nan (f i : binary_float 53 1024) = false) /\ vext x = 2%nat /\
  returns (vector_two_norm_noinit dmag x) m (fun r : binary_float 53 1024 => is_nan r = true).
Proof.
  exists (mem_of [pinf; minf]), (vec_at 0 2), (fv [pinf; minf]).
  split; [concrete|]. split; [intros [|[|i]] Hi; [reflexivity|reflexivity|simpl in Hi; lia]|]. split; [reflexivity|].
  eexists. split; [vm_compute; reflexivity|reflexivity].
Qed.
Print Assumptions C63_two_norm_inf_refuted.

Example C63_two_norm_case :
  returns (vector_two_norm dmag (vec_at 0 3) (fl 0 0)) (mem_of [fl 1 0; qnan; pinf]) (fun r : binary_float 53 1024 => is_nan r = true) /\
  returns (vector_two_norm dmag (vec_at 0 2) (fl 7 0)) (mem_of [fl 3 600; minf]) (fun r : binary_float 53 1024 => r = B754_infinity false) /\
  returns (vector_two_norm dmag (vec_at 0 2) (fl 7 0)) (mem_of [fl 3 0; fl (-4) 0]) (fun r : binary_float 53 1024 => B2SF r = B2SF (fl 12 0) /\
    (is_finite r = true -> is_finite (fl 7 0 : binary_float 53 1024) = true /\
     forall i, (i < 2)%nat -> is_finite (eabs dmag (fv [fl 3 0; fl (-4) 0] i) : binary_float 53 1024) = true)).
Proof.
  split; [|split].
  - apply (C63_two_norm_nan 53 1024 prec53 emax1024 F64 dmag _ _ (fv [fl 1 0; qnan; pinf])); [concrete|].
    right. exists 1%nat. split; [simpl; lia|reflexivity].
  - apply (C63_two_norm_inf_partial 53 1024 prec53 emax1024 F64 dmag _ _ (fv [fl 3 600; minf]) (fl 7 0) 1); [concrete|simpl; lia|reflexivity| | |].
    + intros [|[|i]] Hi N; simpl in Hi; try lia. split; [vm_compute; reflexivity|].
      cbn [dmag eabs]. destruct (fv [fl 3 600; minf] 0 : binary_float 53 1024); reflexivity.
    + exact ssq64.
    + vm_compute; reflexivity.
  - apply out64_ok; [vm_compute; reflexivity|].
    apply (C63_two_norm_finite 53 1024 prec53 emax1024 F64 dmag _ (vec_at 0 2) (fv [fl 3 0; fl (-4) 0])); [concrete|].
    intros i Hi. cbn [dmag eabs]. destruct (fv [fl 3 0; fl (-4) 0] i : binary_float 53 1024); reflexivity.
Qed.

(** Any two infinite elements make the 2-norm NaN, whatever the other elements are. *)
Theorem C63_two_norm_two_inf : forall prec emax (Hp : Prec_gt_0 prec) (He : Prec_lt_emax prec emax) (O : ops)
    (M : mags O (ieee_r prec emax Hp He)) (m : mem O) x f (init : binary_float prec emax) k l, vec_holds m x f ->
  (forall i, (i < vext x)%nat -> Babs (eabs M (f i) : binary_float prec emax) = eabs M (f i)) ->
  (k < l < vext x)%nat -> eabs M (f k) = (B754_infinity false : binary_float prec emax) ->
  eabs M (f l) = (B754_infinity false : binary_float prec emax) ->
  returns (vector_two_norm M x init) m (fun r : binary_float prec emax => is_nan r = true).
Proof. exact (@two_norm_two_inf). Qed.
Print Assumptions C63_two_norm_two_inf.
Example C63_two_norm_two_inf_case :
  returns (vector_two_norm dmag (vec_at 0 3) (fl 7 0)) (mem_of [minf; fl 3 0; pinf]) (fun r : binary_float 53 1024 => is_nan r = true).
Proof.
  apply (C63_two_norm_two_inf 53 1024 prec53 emax1024 F64 dmag _ _ (fv [minf; fl 3 0; pinf]) _ 0 2); [concrete| |simpl; lia|reflexivity|reflexivity].
  intros i Hi. cbn [dmag eabs]. destruct (fv [minf; fl 3 0; pinf] i : binary_float 53 1024); reflexivity.
Qed.

(** Sum of magnitudes: NaN if and only if there is a NaN among the inputs; infinite if some element is. *)
Theorem C63_abs_sum_nan : forall prec emax (Hp : Prec_gt_0 prec) (He : Prec_lt_emax prec emax) (O : ops)
    (M : mags O (ieee_r prec emax Hp He)) (m : mem O) x f (init : binary_float prec emax), arithmetic M = true -> vec_holds m x f ->
  (is_nan init = true \/ exists i, (i < vext x)%nat /\ is_nan (eabs M (f i) : binary_float prec emax) = true) ->
  returns (vector_abs_sum M x init) m (fun r : binary_float prec emax => is_nan r = true).
Proof. exact (@abs_sum_nan). Qed.
Print Assumptions C63_abs_sum_nan.

Theorem C63_abs_sum_inf : forall prec emax (Hp : Prec_gt_0 prec) (He : Prec_lt_emax prec emax) (O : ops)
    (M : mags O (ieee_r prec emax Hp He)) (m : mem O) x f (init : binary_float prec emax), arithmetic M = true -> vec_holds m x f ->
  is_nan init = false -> init <> B754_infinity true ->
  (forall i, (i < vext x)%nat -> Babs (eabs M (f i) : binary_float prec emax) = eabs M (f i) /\
     is_nan (eabs M (f i) : binary_float prec emax) = false) ->
  returns (vector_abs_sum M x init) m (fun r : binary_float prec emax => is_nan r = false /\
    ((init = B754_infinity false \/ exists i, (i < vext x)%nat /\ eabs M (f i) = (B754_infinity false : binary_float prec emax)) ->
     r = B754_infinity false)).
Proof. exact (@abs_sum_inf). Qed.
Print Assumptions C63_abs_sum_inf.

Lemma babs64 : forall x : binary_float 53 1024, Babs (Babs x) = Babs x.
Proof. intros []; reflexivity. Qed.
Lemma finite64 : forall x : binary_float 53 1024, is_finite x = true -> x <> B754_infinity true.
Proof. intros x H ->. discriminate H. Qed.

Example C63_abs_sum_case :
  returns (vector_abs_sum dmag (vec_at 0 3) (fl 1 0)) (mem_of [pinf; qnan; fl 1 0]) (fun r : binary_float 53 1024 => is_nan r = true) /\
  returns (vector_abs_sum dmag (vec_at 0 3) (fl 1 0)) (mem_of [pinf; fl (-2) 0; minf]) (fun r : binary_float 53 1024 => r = B754_infinity false).
Proof.
  split.
  - apply (C63_abs_sum_nan 53 1024 prec53 emax1024 F64 dmag _ _ (fv [pinf; qnan; fl 1 0])); [reflexivity|concrete|].
    right. exists 1%nat. split; [simpl; lia|reflexivity].
  - destruct (C63_abs_sum_inf 53 1024 prec53 emax1024 F64 dmag (mem_of [pinf; fl (-2) 0; minf]) (vec_at 0 3) (fv [pinf; fl (-2) 0; minf]) (fl 1 0))
      as (r & Hr & _ & K); auto.
    + concrete.
    + apply finite64; vm_compute; reflexivity.
    + intros [|[|[|i]]] Hi; simpl in Hi; try lia; (split; [apply babs64|vm_compute; reflexivity]).
    + exists r. split; [exact Hr|]. apply K. right. exists 0%nat. split; [simpl; lia|reflexivity].
Qed.

(** Matrix norms without NaN: never NaN, and infinite if some element is. *)
Theorem C63_inf_norm_inf_partial : forall prec emax (Hp : Prec_gt_0 prec) (He : Prec_lt_emax prec emax) (O : ops)
    (M : mags O (ieee_r prec emax Hp He)) (m : mem O) A a (init : binary_float prec emax), mat_holds m A a ->
  is_nan init = false -> init <> B754_infinity true ->
  (forall i j, (i < ext0 A)%nat -> (j < ext1 A)%nat -> Babs (eabs M (a i j) : binary_float prec emax) = eabs M (a i j) /\
     is_nan (eabs M (a i j) : binary_float prec emax) = false) ->
  returns (matrix_inf_norm M A init) m (fun r : binary_float prec emax => is_nan r = false /\
    ((exists i j, (i < ext0 A)%nat /\ (j < ext1 A)%nat /\ eabs M (a i j) = (B754_infinity false : binary_float prec emax)) ->
     r = B754_infinity false)).
Proof. exact (@inf_norm_inf). Qed.
Print Assumptions C63_inf_norm_inf_partial.

Theorem C63_one_norm_inf_partial : forall prec emax (Hp : Prec_gt_0 prec) (He : Prec_lt_emax prec emax) (O : ops)
    (M : mags O (ieee_r prec emax Hp He)) (m : mem O) A a (init : binary_float prec emax), mat_holds m A a ->
  is_nan init = false -> init <> B754_infinity true ->
  (forall i j, (i < ext0 A)%nat -> (j < ext1 A)%nat -> Babs (eabs M (a i j) : binary_float prec emax) = eabs M (a i j) /\
     is_nan (eabs M (a i j) : binary_float prec emax) = false) ->
  returns (matrix_one_norm M A init) m (fun r : binary_float prec emax => is_nan r = false /\
    ((exists i j, (i < ext0 A)%nat /\ (j < ext1 A)%nat /\ eabs M (a i j) = (B754_infinity false : binary_float prec emax)) ->
     r = B754_infinity false)).
Proof. exact (@one_norm_inf). Qed.
Print Assumptions C63_one_norm_inf_partial.

Example C63_matrix_norm_case :
  returns (matrix_inf_norm dmag (row_major 0 2 2) (fl 0 0)) (mem_of [fl 1 0; minf; fl 5 0; fl 7 0]) (fun r : binary_float 53 1024 => r = B754_infinity false) /\
  returns (matrix_one_norm dmag (row_major 0 2 2) (fl 0 0)) (mem_of [fl 1 0; minf; fl 5 0; fl 7 0]) (fun r : binary_float 53 1024 => r = B754_infinity false).
Proof.
  assert (H : mat_holds (mem_of [fl 1 0; minf; fl 5 0; fl 7 0]) (row_major 0 2 2) (fm [[fl 1 0; minf]; [fl 5 0; fl 7 0]])) by concrete.
  assert (K : forall i j, (i < 2)%nat -> (j < 2)%nat ->
    Babs (eabs dmag (fm [[fl 1 0; minf]; [fl 5 0; fl 7 0]] i j) : binary_float 53 1024) = eabs dmag (fm [[fl 1 0; minf]; [fl 5 0; fl 7 0]] i j) /\
    is_nan (eabs dmag (fm [[fl 1 0; minf]; [fl 5 0; fl 7 0]] i j) : binary_float 53 1024) = false).
  { intros [|[|i]] [|[|j]] Hi Hj; try lia; (split; [apply babs64|vm_compute; reflexivity]). }
  split.
  - destruct (C63_inf_norm_inf_partial 53 1024 prec53 emax1024 F64 dmag _ _ _ (fl 0 0) H eq_refl (finite64 (fl 0 0) ltac:(vm_compute; reflexivity)) K) as (r & Hr & _ & Q).
    exists r. split; [exact Hr|]. apply Q. exists 0%nat, 1%nat. split; [simpl; lia|]. split; [simpl; lia|]. reflexivity.
  - destruct (C63_one_norm_inf_partial 53 1024 prec53 emax1024 F64 dmag _ _ _ (fl 0 0) H eq_refl (finite64 (fl 0 0) ltac:(vm_compute; reflexivity)) K) as (r & Hr & _ & Q).
    exists r. split; [exact Hr|]. apply Q. exists 0%nat, 1%nat. split; [simpl; lia|]. split; [simpl; lia|]. reflexivity.
Qed.

(** With a NaN they may return a finite value that is not even an upper bound of the other row sums: rows
    (5, 0), (NaN, 0), (1, 0) have infinity norm 1, and the transposed matrix has 1-norm 1. *)
Theorem C63_inf_norm_nan_refuted : exists (m : mem F64) A a, mat_holds m A a /\
  (exists i j, (i < ext0 A)%nat /\ (j < ext1 A)%nat /\ is_nan (a i j : binary_float 53 1024) = true) /\
  (exists i j, (i < ext0 A)%nat /\ (j < ext1 A)%nat /\ a i j = fl 5 0) /\
  returns (matrix_inf_norm_noinit dmag A) m (fun r : binary_float 53 1024 => is_finite r = true /\ B2SF r = B2SF (fl 1 0)).
Proof.
  exists (mem_of [fl 5 0; fl 0 0; qnan; fl 0 0; fl 1 0; fl 0 0]), (row_major 0 3 2), (fm [[fl 5 0; fl 0 0]; [qnan; fl 0 0]; [fl 1 0; fl 0 0]]).
  split; [concrete|]. split; [|split].
  - exists 1%nat, 0%nat. split; [simpl; lia|]. split; [simpl; lia|reflexivity].
  - exists 0%nat, 0%nat. split; [simpl; lia|]. split; [simpl; lia|reflexivity].
  - eexists. split; [reflexivity|]. split; vm_compute; reflexivity.
Qed.
Print Assumptions C63_inf_norm_nan_refuted.

Theorem C63_one_norm_nan_refuted : exists (m : mem F64) A a, mat_holds m A a /\
  (exists i j, (i < ext0 A)%nat /\ (j < ext1 A)%nat /\ is_nan (a i j : binary_float 53 1024) = true) /\
  (exists i j, (i < ext0 A)%nat /\ (j < ext1 A)%nat /\ a i j = fl 5 0) /\
  returns (matrix_one_norm_noinit dmag A) m (fun r : binary_float 53 1024 => is_finite r = true /\ B2SF r = B2SF (fl 1 0)).
Proof.
  exists (mem_of [fl 5 0; fl 0 0; qnan; fl 0 0; fl 1 0; fl 0 0]), (col_major 0 2 3), (fm [[fl 5 0; qnan; fl 1 0]; [fl 0 0; fl 0 0; fl 0 0]]).
  split; [concrete|]. split; [|split].
  - exists 0%nat, 1%nat. split; [simpl; lia|]. split; [simpl; lia|reflexivity].
  - exists 0%nat, 0%nat. split; [simpl; lia|]. split; [simpl; lia|reflexivity].
  - eexists. split; [reflexivity|]. split; vm_compute; reflexivity.
Qed.
Print Assumptions C63_one_norm_nan_refuted.

(** Exactly which lines count: let p be the last row (column) with a NaN.  If it is the last one of all, the norm is
    NaN; otherwise it is the largest of the sums of the rows (columns) after p, and everything before is forgotten. *)
Theorem C63_inf_norm_after_nan : forall prec emax (Hp : Prec_gt_0 prec) (He : Prec_lt_emax prec emax) (O : ops)
    (M : mags O (ieee_r prec emax Hp He)) (m : mem O) A a (init : binary_float prec emax) p, mat_holds m A a ->
  is_nan init = false -> init <> B754_infinity true ->
  (forall i j, (i < ext0 A)%nat -> (j < ext1 A)%nat -> Babs (eabs M (a i j) : binary_float prec emax) = eabs M (a i j)) ->
  (p < ext0 A)%nat -> (exists j, (j < ext1 A)%nat /\ is_nan (eabs M (a p j) : binary_float prec emax) = true) ->
  (forall i j, (p < i < ext0 A)%nat -> (j < ext1 A)%nat -> is_nan (eabs M (a i j) : binary_float prec emax) = false) ->
  let sum i := fold_left (fun s j => Bplus mode_NE s (eabs M (a i j) : binary_float prec emax)) (seq 0 (ext1 A)) init in
  returns (matrix_inf_norm M A init) m (fun r : binary_float prec emax =>
    (S p = ext0 A -> is_nan r = true) /\
    ((S p < ext0 A)%nat -> is_nan r = false /\ (exists i, (p < i < ext0 A)%nat /\ r = sum i) /\
       forall i, (p < i < ext0 A)%nat -> Bltb r (sum i) = false)).
Proof. exact (@inf_norm_forget). Qed.
Print Assumptions C63_inf_norm_after_nan.
Theorem C63_one_norm_after_nan : forall prec emax (Hp : Prec_gt_0 prec) (He : Prec_lt_emax prec emax) (O : ops)
    (M : mags O (ieee_r prec emax Hp He)) (m : mem O) A a (init : binary_float prec emax) p, mat_holds m A a ->
  is_nan init = false -> init <> B754_infinity true ->
  (forall i j, (i < ext0 A)%nat -> (j < ext1 A)%nat -> Babs (eabs M (a i j) : binary_float prec emax) = eabs M (a i j)) ->
  (p < ext1 A)%nat -> (exists i, (i < ext0 A)%nat /\ is_nan (eabs M (a i p) : binary_float prec emax) = true) ->
  (forall i j, (i < ext0 A)%nat -> (p < j < ext1 A)%nat -> is_nan (eabs M (a i j) : binary_float prec emax) = false) ->
  let sum j := fold_left (fun s i => Bplus mode_NE s (eabs M (a i j) : binary_float prec emax)) (seq 0 (ext0 A)) init in
  returns (matrix_one_norm M A init) m (fun r : binary_float prec emax =>
    (S p = ext1 A -> is_nan r = true) /\
    ((S p < ext1 A)%nat -> is_nan r = false /\ (exists j, (p < j < ext1 A)%nat /\ r = sum j) /\
       forall j, (p < j < ext1 A)%nat -> Bltb r (sum j) = false)).
Proof. exact (@one_norm_forget). Qed.
Print Assumptions C63_one_norm_after_nan.
(** Rows (inf, 0), (NaN, 3), (1, 2): the infinity norm with init 4 is 7, although an element is infinite;
    the same for the 1-norm of the transposed matrix. *)
Example C63_after_nan_case :
  returns (matrix_inf_norm dmag (row_major 0 3 2) (fl 4 0)) (mem_of [pinf; fl 0 0; qnan; fl 3 0; fl 1 0; fl (-2) 0])
    (fun r : binary_float 53 1024 => B2SF r = B2SF (fl 7 0)) /\
  returns (matrix_one_norm dmag (col_major 0 2 3) (fl 4 0)) (mem_of [pinf; fl 0 0; qnan; fl 3 0; fl 1 0; fl (-2) 0])
    (fun r : binary_float 53 1024 => B2SF r = B2SF (fl 7 0)).
Proof.
  split.
  - destruct (C63_inf_norm_after_nan 53 1024 prec53 emax1024 F64 dmag (mem_of [pinf; fl 0 0; qnan; fl 3 0; fl 1 0; fl (-2) 0])
      (row_major 0 3 2) (fm [[pinf; fl 0 0]; [qnan; fl 3 0]; [fl 1 0; fl (-2) 0]]) (fl 4 0) 1) as (r & Hr & _ & K).
    + concrete.
    + reflexivity.
    + apply finite64; vm_compute; reflexivity.
    + intros i j _ _. apply babs64.
    + simpl; lia.
    + exists 0%nat. split; [simpl; lia|reflexivity].
    + intros [|[|[|i]]] [|[|j]] Hi Hj; simpl in Hi, Hj; try lia; vm_compute; reflexivity.
    + exists r. split; [exact Hr|]. destruct (K ltac:(simpl; lia)) as (_ & (i & Hi & ->) & _). simpl in Hi.
      replace i with 2%nat by lia. vm_compute. reflexivity.
  - destruct (C63_one_norm_after_nan 53 1024 prec53 emax1024 F64 dmag (mem_of [pinf; fl 0 0; qnan; fl 3 0; fl 1 0; fl (-2) 0])
      (col_major 0 2 3) (fm [[pinf; qnan; fl 1 0]; [fl 0 0; fl 3 0; fl (-2) 0]]) (fl 4 0) 1) as (r & Hr & _ & K).
    + concrete.
    + reflexivity.
    + apply finite64; vm_compute; reflexivity.
    + intros i j _ _. apply babs64.
    + simpl; lia.
    + exists 0%nat. split; [simpl; lia|reflexivity].
    + intros [|[|i]] [|[|[|j]]] Hi Hj; simpl in Hi, Hj; try lia; vm_compute; reflexivity.
    + exists r. split; [exact Hr|]. destruct (K ltac:(simpl; lia)) as (_ & (i & Hi & ->) & _). simpl in Hi.
      replace i with 2%nat by lia. vm_compute. reflexivity.
Qed.

(** vector_idx_abs_max: NaN elements are passed over unless the first element is one, which is then the answer. *)
Theorem C63_idx_abs_max_partial : forall prec emax (O : ops) (mag : O -> binary_float prec emax) size_max (m : mem O) v f,
  vec_holds m v f -> (0 < vext v)%nat -> is_nan (mag (f 0%nat)) = false ->
  succeeds (vector_idx_abs_max mag (@Bltb prec emax) size_max v) m (fun r m' => m' = m /\
     exists k, r = N.of_nat k /\ (k < vext v)%nat /\ is_nan (mag (f k)) = false /\
       (forall i, (i < vext v)%nat -> is_nan (mag (f i)) = false -> Bltb (mag (f k)) (mag (f i)) = false) /\
       (forall i, (i < k)%nat -> is_nan (mag (f i)) = false -> Bltb (mag (f i)) (mag (f k)) = true)).
Proof. exact (@idx_abs_max_ieee). Qed.
Print Assumptions C63_idx_abs_max_partial.

Theorem C63_idx_abs_max_first_nan : forall prec emax (O : ops) (mag : O -> binary_float prec emax) size_max (m : mem O) v f,
  vec_holds m v f -> (0 < vext v)%nat -> is_nan (mag (f 0%nat)) = true ->
  succeeds (vector_idx_abs_max mag (@Bltb prec emax) size_max v) m (fun r m' => m' = m /\ r = 0%N).
Proof. exact (@idx_abs_max_nan0). Qed.
Print Assumptions C63_idx_abs_max_first_nan.

Example C63_idx_abs_max_case :
  let m : mem F64 := mem_of [qnan; fl 1 0; qnan; fl (-5) 0; fl 5 0] in
  let run4 := vector_idx_abs_max (@Babs 53 1024 : F64 -> _) (@Bltb 53 1024) 255 (vec_at 1 4) in
  (match run run4 m with Ok r _ => r = 2%N | Err _ _ => False end) /\
  succeeds run4 m (fun r m' => m' = m /\
     exists k, r = N.of_nat k /\ (k < 4)%nat /\ is_nan (Babs (fv [fl 1 0; qnan; fl (-5) 0; fl 5 0] k : binary_float 53 1024)) = false /\
       (forall i, (i < 4)%nat -> is_nan (Babs (fv [fl 1 0; qnan; fl (-5) 0; fl 5 0] i : binary_float 53 1024)) = false ->
          Bltb (Babs (fv [fl 1 0; qnan; fl (-5) 0; fl 5 0] k : binary_float 53 1024)) (Babs (fv [fl 1 0; qnan; fl (-5) 0; fl 5 0] i : binary_float 53 1024)) = false) /\
       (forall i, (i < k)%nat -> is_nan (Babs (fv [fl 1 0; qnan; fl (-5) 0; fl 5 0] i : binary_float 53 1024)) = false ->
          Bltb (Babs (fv [fl 1 0; qnan; fl (-5) 0; fl 5 0] i : binary_float 53 1024)) (Babs (fv [fl 1 0; qnan; fl (-5) 0; fl 5 0] k : binary_float 53 1024)) = true)) /\
  succeeds (vector_idx_abs_max (@Babs 53 1024 : F64 -> _) (@Bltb 53 1024) 255 (vec_at 0 5)) m (fun r m' => m' = m /\ r = 0%N).
Proof.
  intros. split; [vm_compute; reflexivity|]. split.
  - apply (C63_idx_abs_max_partial 53 1024 F64 (@Babs 53 1024)); [concrete|simpl; lia|vm_compute; reflexivity].
  - apply (C63_idx_abs_max_first_nan 53 1024 F64 (@Babs 53 1024) 255 m (vec_at 0 5) (fv [qnan; fl 1 0; qnan; fl (-5) 0; fl 5 0]));
      [concrete|simpl; lia|reflexivity].
Qed.

(** * C64: Kokkos reductions: every execution, whatever the order of the additions, stays within the bound *)
Theorem C64_abs_sum : forall prec emax (Hp : Prec_gt_0 prec) (He : Prec_lt_emax prec emax) (O : ops)
    (M : mags O (ieee_r prec emax Hp He)) (m : mem O) x f (init : binary_float prec emax), plain_v x -> vec_holds m x f ->
  red_returns (kk_vector_abs_sum M x init) m
    (sum_accurate (vext x) (vext x) init (fun i => eabs M (f i) : binary_float prec emax)).
Proof. exact (@kk_abs_sum_float). Qed.
Print Assumptions C64_abs_sum.

Theorem C64_dot : forall prec emax (Hp : Prec_gt_0 prec) (He : Prec_lt_emax prec emax) (m : mem (ieee_ops prec emax Hp He)) x y f g init,
  plain_v x -> plain_v y -> vext x = vext y -> vec_holds m x f -> vec_holds m y g ->
  red_returns (kk_dot x y init) m (accurate (vext x + 1) (vext x) init f g).
Proof. exact (@kk_dot_float). Qed.
Print Assumptions C64_dot.

(** vector_norm2: the rounded square root of an accurate value of init + sum of squares.  Missing: freedom from
    overflow and underflow of the squares (see the refutations). *)
Theorem C64_norm2_partial : forall prec emax (Hp : Prec_gt_0 prec) (He : Prec_lt_emax prec emax) (O : ops)
    (M : mags O (ieee_r prec emax Hp He)) (m : mem O) x f (init : binary_float prec emax), plain_v x -> vec_holds m x f ->
  red_returns (kk_vector_norm2 M x init) m (fun r : binary_float prec emax => exists v : binary_float prec emax, r = Bsqrt mode_NE v /\
    accurate (vext x + 1) (vext x) init (fun i => eabs M (f i) : binary_float prec emax) (fun i => eabs M (f i) : binary_float prec emax) v).
Proof. exact (@kk_norm2_float). Qed.
Print Assumptions C64_norm2_partial.

(** The inline 2-norm of (2^600) is 2^600; the Kokkos one is infinite. *)
Theorem C64_norm2_overflow_refuted : exists (m : mem F64) x f, plain_v x /\ vec_holds m x f /\
  returns (vector_two_norm_noinit dmag x) m (fun r : binary_float 53 1024 => B2SF r = B2SF (fl 1 600)) /\
  (exists r : binary_float 53 1024, red_result m r (kk_vector_norm2 dmag x (B754_zero false : R64)) /\ r = B754_infinity false) /\
  ~ red_returns (kk_vector_norm2 dmag x (B754_zero false : R64)) m (fun r : binary_float 53 1024 => is_finite r = true).
Proof.
  exists (mem_of [fl 1 600]), (vec_at 0 1), (fv [fl 1 600]).
  assert (N : exists r : binary_float 53 1024, red_result (mem_of [fl 1 600]) r (kk_vector_norm2 dmag (vec_at 0 1) (B754_zero false : R64)) /\ r = B754_infinity false).
  { eexists. split.
    - unfold kk_vector_norm2. eapply red_reduce with (l := [0]%nat); [apply Permutation_refl| |constructor].
      apply (partial_step (l := [])) with (x := (B754_zero false : R64)) (m' := mem_of [fl 1 600]); [constructor|].
      reflexivity.
    - vm_compute. reflexivity. }
  split; [split; auto|]. split; [concrete|]. split; [|split; [exact N|]].
  - eexists. split; [reflexivity|vm_compute; reflexivity].
  - intros K. destruct N as (r & Hr & ->). assert (F := red_sound _ K Hr). discriminate F.
Qed.
Print Assumptions C64_norm2_overflow_refuted.

(** The inline 2-norm of (2^-600) is 2^-600; the Kokkos one is 0, the norm of a non-zero vector. *)
Theorem C64_norm2_underflow_refuted : exists (m : mem F64) x f, plain_v x /\ vec_holds m x f /\
  returns (vector_two_norm_noinit dmag x) m (fun r : binary_float 53 1024 => B2SF r = B2SF (fl 1 (-600))) /\
  (exists r : binary_float 53 1024, red_result m r (kk_vector_norm2 dmag x (B754_zero false : R64)) /\ r = B754_zero false) /\
  ~ red_returns (kk_vector_norm2 dmag x (B754_zero false : R64)) m (fun r : binary_float 53 1024 => is_zero 53 1024 r = false).
Proof.
  exists (mem_of [fl 1 (-600)]), (vec_at 0 1), (fv [fl 1 (-600)]).
  assert (N : exists r : binary_float 53 1024, red_result (mem_of [fl 1 (-600)]) r (kk_vector_norm2 dmag (vec_at 0 1) (B754_zero false : R64)) /\ r = B754_zero false).
  { eexists. split.
    - unfold kk_vector_norm2. eapply red_reduce with (l := [0]%nat); [apply Permutation_refl| |constructor].
      apply (partial_step (l := [])) with (x := (B754_zero false : R64)) (m' := mem_of [fl 1 (-600)]); [constructor|].
      reflexivity.
    - vm_compute. reflexivity. }
  split; [split; auto|]. split; [concrete|]. split; [|split; [exact N|]].
  - eexists. split; [reflexivity|vm_compute; reflexivity].
  - intros K. destruct N as (r & Hr & ->). assert (F := red_sound _ K Hr). discriminate F.
Qed.
Print Assumptions C64_norm2_underflow_refuted.

Example C64_case :
  let m : mem F64 := mem_of [fl 1 0; fl 1 (-53); fl (-1) 0; fl 3 0; fl 5 0; fl 7 0] in
  let f := fv [fl 1 0; fl 1 (-53); fl (-1) 0] in let g := fv [fl 3 0; fl 5 0; fl 7 0] in
  red_returns (kk_vector_abs_sum dmag (vec_at 0 3) (fl 1 0 : R64)) m
    (sum_accurate 3 3 (fl 1 0 : binary_float 53 1024) (fun i => eabs dmag (f i) : binary_float 53 1024)) /\
  red_returns (kk_dot (vec_at 0 3) (vec_at 3 3) (fl 1 0)) m (accurate 4 3 (fl 1 0 : binary_float 53 1024) f g) /\
  red_returns (kk_vector_norm2 dmag (vec_at 0 3) (fl 1 0 : R64)) m (fun r : binary_float 53 1024 => exists v : binary_float 53 1024, r = Bsqrt mode_NE v /\
    accurate 4 3 (fl 1 0 : binary_float 53 1024) (fun i => eabs dmag (f i) : binary_float 53 1024) (fun i => eabs dmag (f i) : binary_float 53 1024) v).
Proof.
  intros.
  assert (P1 : plain_v (@vec_at F64 0 3)) by (split; auto). assert (P2 : plain_v (@vec_at F64 3 3)) by (split; auto).
  assert (V1 : vec_holds m (vec_at 0 3) f) by concrete. assert (V2 : vec_holds m (vec_at 3 3) g) by concrete.
  split; [|split].
  - apply (C64_abs_sum 53 1024 prec53 emax1024 F64 dmag m (vec_at 0 3) f (fl 1 0) P1 V1).
  - apply (C64_dot 53 1024 prec53 emax1024 m (vec_at 0 3) (vec_at 3 3) f g (fl 1 0) P1 P2 eq_refl V1 V2).
  - apply (C64_norm2_partial 53 1024 prec53 emax1024 F64 dmag m (vec_at 0 3) f (fl 1 0) P1 V1).
Qed.

(** * C65: accuracy of sums of magnitudes and of the 1-norm and infinity norm of a matrix *)
Theorem C65_abs_sum : forall prec emax (Hp : Prec_gt_0 prec) (He : Prec_lt_emax prec emax) (O : ops)
    (M : mags O (ieee_r prec emax Hp He)) (m : mem O) x f (init : binary_float prec emax), arithmetic M = true -> vec_holds m x f ->
  returns (vector_abs_sum M x init) m (sum_accurate (vext x) (vext x) init (fun i => eabs M (f i) : binary_float prec emax)).
Proof. exact (@abs_sum_float). Qed.
Print Assumptions C65_abs_sum.

(** Complex elements: |Re| + |Im|, two additions per element. *)
Theorem C65_abs_sum_complex : forall prec emax (Hp : Prec_gt_0 prec) (He : Prec_lt_emax prec emax) (O : ops)
    (M : mags O (ieee_r prec emax Hp He)) (m : mem O) x f (init : binary_float prec emax), arithmetic M = false -> vec_holds m x f ->
  returns (vector_abs_sum M x init) m (fun r : binary_float prec emax =>
    let T := rsum (vext x) (fun i => Rabs (B2R (ereal M (f i) : binary_float prec emax)) + Rabs (B2R (eimag M (f i) : binary_float prec emax))) in
    let fin := forall i, (i < vext x)%nat -> is_finite (ereal M (f i) : binary_float prec emax) = true /\
                                             is_finite (eimag M (f i) : binary_float prec emax) = true in
    (is_finite r = true -> is_finite init = true /\ fin /\
      Rabs (B2R r - (B2R init + T)) <= gam prec (2 * vext x) * (Rabs (B2R init) + T)) /\
    (is_finite init = true -> fin ->
      (1 + unit_roundoff prec) ^ (2 * vext x) * (Rabs (B2R init) + T) <= max_finite prec emax -> is_finite r = true)).
Proof. exact (@abs_sum_c_float). Qed.
Print Assumptions C65_abs_sum_complex.

Theorem C65_inf_norm : forall prec emax (Hp : Prec_gt_0 prec) (He : Prec_lt_emax prec emax) (O : ops)
    (M : mags O (ieee_r prec emax Hp He)) (m : mem O) A a (init : binary_float prec emax), mat_holds m A a ->
  is_finite init = true ->
  (forall i j, (i < ext0 A)%nat -> (j < ext1 A)%nat -> is_finite (eabs M (a i j) : binary_float prec emax) = true /\ 0 <= fmag M (a i j)) ->
  let T := rmax0 (ext0 A) (fun i => rsum (ext1 A) (fun j => fmag M (a i j))) in
  (1 + unit_roundoff prec) ^ ext1 A * (Rabs (B2R init) + T) <= max_finite prec emax ->
  returns (matrix_inf_norm M A init) m (fun r : binary_float prec emax =>
    is_finite r = true /\ Rabs (B2R r - (B2R init + T)) <= gam prec (ext1 A) * (Rabs (B2R init) + T)).
Proof. exact (@inf_norm_float). Qed.
Print Assumptions C65_inf_norm.

Theorem C65_one_norm : forall prec emax (Hp : Prec_gt_0 prec) (He : Prec_lt_emax prec emax) (O : ops)
    (M : mags O (ieee_r prec emax Hp He)) (m : mem O) A a (init : binary_float prec emax), mat_holds m A a ->
  is_finite init = true ->
  (forall i j, (i < ext0 A)%nat -> (j < ext1 A)%nat -> is_finite (eabs M (a i j) : binary_float prec emax) = true /\ 0 <= fmag M (a i j)) ->
  let T := rmax0 (ext1 A) (fun j => rsum (ext0 A) (fun i => fmag M (a i j))) in
  (1 + unit_roundoff prec) ^ ext0 A * (Rabs (B2R init) + T) <= max_finite prec emax ->
  returns (matrix_one_norm M A init) m (fun r : binary_float prec emax =>
    is_finite r = true /\ Rabs (B2R r - (B2R init + T)) <= gam prec (ext0 A) * (Rabs (B2R init) + T)).
Proof. exact (@one_norm_float). Qed.
Print Assumptions C65_one_norm.

(** Complex numbers with parts in binary64, for the complex sum. *)
Definition CF64 : ops := @Ops (binary_float 53 1024 * binary_float 53 1024) (fl 0 0, fl 0 0) (fl 1 0, fl 0 0)
  (fun a _ => a) (fun a _ => a) (fun a _ => a) (fun a _ => a) (fun a => a) (fun a => a).
Definition cmag64 : mags CF64 R64 := @Mags CF64 R64 false (fun v => Babs (fst v)) fst snd.

(** 1 + 2^-53 + 2^-53: the terms 2^-53 are lost, the bound holds.  Matrix [1 -2; 3 4]: the norms are exact. *)
Example C65_case :
  let f := fv [fl (-1) 0; fl 1 (-53); fl (-1) (-53)] in
  returns (vector_abs_sum dmag (vec_at 0 3) (fl 0 0)) (mem_of [fl (-1) 0; fl 1 (-53); fl (-1) (-53)]) (fun r : binary_float 53 1024 =>
    B2SF r = B2SF (fl 1 0) /\ sum_accurate 3 3 (fl 0 0 : binary_float 53 1024) (fun i => eabs dmag (f i) : binary_float 53 1024) r) /\
  returns (vector_abs_sum cmag64 (vec_at 0 1) (fl 0 0)) (mem_of [((fl 3 0, fl (-4) 0) : CF64)]) (fun r : binary_float 53 1024 =>
    B2SF r = B2SF (fl 7 0)) /\
  returns (matrix_inf_norm dmag (row_major 0 2 2) (fl 0 0)) (mem_of [fl 1 0; fl (-2) 0; fl 3 0; fl 4 0]) (fun r : binary_float 53 1024 =>
    B2SF r = B2SF (fl 7 0)) /\
  returns (matrix_one_norm dmag (row_major 0 2 2) (fl 0 0)) (mem_of [fl 1 0; fl (-2) 0; fl 3 0; fl 4 0]) (fun r : binary_float 53 1024 =>
    B2SF r = B2SF (fl 6 0)).
Proof.
  intros f. split; [|split; [|split]].
  - apply out64_ok; [vm_compute; reflexivity|].
    apply (C65_abs_sum 53 1024 prec53 emax1024 F64 dmag _ (vec_at 0 3) f (fl 0 0)); [reflexivity|concrete].
  - eexists. split; [reflexivity|vm_compute; reflexivity].
  - eexists. split; [reflexivity|vm_compute; reflexivity].
  - eexists. split; [reflexivity|vm_compute; reflexivity].
Qed.

(** The hypotheses of the norm theorems hold for that matrix. *)
Example C65_norm_case :
  let a := fm [[fl 1 0; fl (-2) 0]; [fl 3 0; fl 4 0]] in
  let T := rmax0 2 (fun i => rsum 2 (fun j => fmag dmag (a i j))) in
  returns (matrix_inf_norm dmag (row_major 0 2 2) (fl 0 0)) (mem_of [fl 1 0; fl (-2) 0; fl 3 0; fl 4 0]) (fun r : binary_float 53 1024 =>
    is_finite r = true /\ Rabs (B2R r - (B2R (fl 0 0) + T)) <= gam 53 2 * (Rabs (B2R (fl 0 0)) + T)).
Proof.
  intros a T.
  assert (V : forall i j, (i < 2)%nat -> (j < 2)%nat -> is_finite (eabs dmag (a i j) : binary_float 53 1024) = true /\ 0 <= fmag dmag (a i j) <= 4).
  { assert (B : forall x : binary_float 53 1024, SpecFloat.SFleb (B2SF (Babs x)) (B2SF (fl 4 0)) = true -> is_finite x = true ->
       is_finite (Babs x) = true /\ 0 <= B2R (Babs x) <= 4).
    { intros x Hx Fx. rewrite is_finite_Babs. split; auto. rewrite B2R_Babs. split; [apply Rabs_pos|].
      rewrite <- B2R_Babs. change (Bleb (Babs x) (fl 4 0 : binary_float 53 1024) = true) in Hx.
      rewrite Bleb_correct in Hx; [|rewrite is_finite_Babs; auto|vm_compute; reflexivity].
      destruct (Rle_bool_spec (B2R (Babs x)) (B2R (fl 4 0 : binary_float 53 1024))) as [L|L]; [|discriminate].
      eapply Rle_trans; [exact L|]. right. rewrite <- SF2R_B2SF. replace (B2SF (fl 4 0)) with (SpecFloat.S754_finite false 4503599627370496 (-50)) by (vm_compute; reflexivity).
      unfold SF2R, F2R. simpl. lra. }
    intros [|[|i]] [|[|j]] Hi Hj; try lia; unfold fmag; apply B; vm_compute; reflexivity. }
  apply (C65_inf_norm 53 1024 prec53 emax1024 F64 dmag _ (row_major 0 2 2) a (fl 0 0)).
  - concrete.
  - vm_compute; reflexivity.
  - intros i j Hi Hj. destruct (V i j Hi Hj) as (? & ? & ?). auto.
  - replace (B2R (fl 0 0 : binary_float 53 1024)) with 0 by (vm_compute; reflexivity).
    rewrite Rabs_R0. change (rmax0 2 (fun i => rsum 2 (fun j => fmag dmag (a i j)))) with T || idtac.
    assert (T <= 8).
    { unfold T. cbn [rmax0 rsum]. pose proof (V 0 0)%nat. pose proof (V 0 1)%nat. pose proof (V 1 0)%nat. pose proof (V 1 1)%nat.
      repeat match goal with H : (_ < _)%nat -> _ |- _ => specialize (H ltac:(lia)) end.
      repeat apply Rmax_lub; lra. }
    pose proof max64. pose proof u64. simpl ext0. simpl ext1. cbv zeta. fold T.
    assert (0 <= T) by apply rmax0_nonneg.
    assert ((1 + unit_roundoff 53) ^ 2 <= 4) by (simpl; nra).
    assert (0 <= (1 + unit_roundoff 53) ^ 2) by (apply pow_le; lra). nra.
Qed.

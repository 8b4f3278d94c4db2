(** C95: rounded norms keep the order properties of norms.  For every IEEE 754 binary format: precision [prec], largest
    exponent [emax] (53 and 1024 for double). *)
From Coq Require Import List Arith ZArith Reals Lia Lra Bool.
From Flocq Require Import Core.Core IEEE754.BinarySingleNaN.
From Verif Require Import Mem Scalar View Spec SpecR SpecF SpecOrd Norm Ieee Blas1 Wp
  PfNorm PfNormOrd PfNormOrd2 PfNormOrd3 PfMagOnly Inst PropFloat PropNormF.
Import ListNotations.
Local Open Scope R_scope.

(** * At least every magnitude, and zero only for zero *)
Theorem C95_abs_sum : forall prec emax (Hp : Prec_gt_0 prec) (He : Prec_lt_emax prec emax) (O : ops)
    (M : mags O (ieee_r prec emax Hp He)) (m : mem O) x f (init : binary_float prec emax),
  arithmetic M = true -> vec_holds m x f ->
  fle (B754_zero false) init -> (forall i, (i < vext x)%nat -> magnitude (emag M (f i))) ->
  returns (vector_abs_sum M x init) m (tops init (vext x) (fun i => emag M (f i))).
Proof. exact (@abs_sum_order). Qed.
Print Assumptions C95_abs_sum.

Theorem C95_abs_sum_complex : forall prec emax (Hp : Prec_gt_0 prec) (He : Prec_lt_emax prec emax) (O : ops)
    (M : mags O (ieee_r prec emax Hp He)) (m : mem O) x f (init : binary_float prec emax),
  arithmetic M = false -> vec_holds m x f -> fle (B754_zero false) init ->
  (forall i, (i < vext x)%nat ->
     is_nan (ereal M (f i) : binary_float prec emax) = false /\ is_nan (eimag M (f i) : binary_float prec emax) = false) ->
  returns (vector_abs_sum M x init) m (fun r : binary_float prec emax => fle init r /\
    (forall i, (i < vext x)%nat ->
       fle (Babs (ereal M (f i) : binary_float prec emax)) r /\ fle (Babs (eimag M (f i) : binary_float prec emax)) r) /\
    (fzero r <-> fzero init /\ forall i, (i < vext x)%nat ->
       fzero (ereal M (f i) : binary_float prec emax) /\ fzero (eimag M (f i) : binary_float prec emax))).
Proof. exact (@abs_sum_c_order). Qed.
Print Assumptions C95_abs_sum_complex.

Theorem C95_inf_norm : forall prec emax (Hp : Prec_gt_0 prec) (He : Prec_lt_emax prec emax) (O : ops)
    (M : mags O (ieee_r prec emax Hp He)) (m : mem O) A a (init : binary_float prec emax),
  mat_holds m A a -> fle (B754_zero false) init ->
  (forall i j, (i < ext0 A)%nat -> (j < ext1 A)%nat -> magnitude (emag M (a i j))) ->
  returns (matrix_inf_norm M A init) m (tops2 init (ext0 A) (ext1 A) (fun i j => emag M (a i j))).
Proof. exact (@inf_norm_order). Qed.
Print Assumptions C95_inf_norm.

Theorem C95_one_norm : forall prec emax (Hp : Prec_gt_0 prec) (He : Prec_lt_emax prec emax) (O : ops)
    (M : mags O (ieee_r prec emax Hp He)) (m : mem O) A a (init : binary_float prec emax),
  mat_holds m A a -> fle (B754_zero false) init ->
  (forall i j, (i < ext0 A)%nat -> (j < ext1 A)%nat -> magnitude (emag M (a i j))) ->
  returns (matrix_one_norm M A init) m (tops2 init (ext0 A) (ext1 A) (fun i j => emag M (a i j))).
Proof. exact (@one_norm_order). Qed.
Print Assumptions C95_one_norm.

(** Finite magnitudes here; the result may overflow to infinity.  The condition on the length keeps the scaled sum finite. *)
Theorem C95_two_norm : forall prec emax (Hp : Prec_gt_0 prec) (He : Prec_lt_emax prec emax) (O : ops)
    (M : mags O (ieee_r prec emax Hp He)) (m : mem O) x f (init : binary_float prec emax),
  vec_holds m x f ->
  (forall i, (i < vext x)%nat -> magnitude (emag M (f i)) /\ is_finite (emag M (f i)) = true) ->
  (1 + INR (vext x)) * (1 + unit_roundoff prec) ^ vext x <= max_finite prec emax -> fle (B754_zero false) init ->
  returns (vector_two_norm M x init) m (tops init (vext x) (fun i => emag M (f i))).
Proof. exact (@two_norm_bounds). Qed.
Print Assumptions C95_two_norm.

Theorem C95_dot_self : forall prec emax (Hp : Prec_gt_0 prec) (He : Prec_lt_emax prec emax)
    (m : mem (ieee_ops prec emax Hp He)) x f (init : binary_float prec emax), vec_holds m x f ->
  fle (B754_zero false) init -> (forall i, (i < vext x)%nat -> is_nan (f i : binary_float prec emax) = false) ->
  succeeds (dot x x init) m (fun r m' => m' = m /\ fle init (r : binary_float prec emax) /\
    forall i, (i < vext x)%nat -> fle (Bmult mode_NE (f i : binary_float prec emax) (f i)) r).
Proof. exact (@dot_self_order). Qed.
Print Assumptions C95_dot_self.

(** * Larger magnitudes, larger norm *)
Theorem C95_abs_sum_monotone : forall prec emax (Hp : Prec_gt_0 prec) (He : Prec_lt_emax prec emax) (O O2 : ops)
    (M : mags O (ieee_r prec emax Hp He)) (M2 : mags O2 (ieee_r prec emax Hp He)) (m : mem O) (m2 : mem O2) x y f g
    (init init2 : binary_float prec emax),
  arithmetic M = true -> arithmetic M2 = true -> vec_holds m x f -> vec_holds m2 y g -> vext y = vext x ->
  fle init init2 -> init <> B754_infinity true ->
  (forall i, (i < vext x)%nat -> magnitude (emag M (f i)) /\ magnitude (emag M2 (g i)) /\ fle (emag M (f i)) (emag M2 (g i))) ->
  both_return (vector_abs_sum M x init) m (vector_abs_sum M2 y init2) m2 (@fle prec emax).
Proof. exact (@abs_sum_mono). Qed.
Print Assumptions C95_abs_sum_monotone.

Theorem C95_inf_norm_monotone : forall prec emax (Hp : Prec_gt_0 prec) (He : Prec_lt_emax prec emax) (O O2 : ops)
    (M : mags O (ieee_r prec emax Hp He)) (M2 : mags O2 (ieee_r prec emax Hp He)) (m : mem O) (m2 : mem O2) A B a b
    (init init2 : binary_float prec emax),
  mat_holds m A a -> mat_holds m2 B b -> ext0 B = ext0 A -> ext1 B = ext1 A ->
  fle init init2 -> init <> B754_infinity true ->
  (forall i j, (i < ext0 A)%nat -> (j < ext1 A)%nat ->
     magnitude (emag M (a i j)) /\ magnitude (emag M2 (b i j)) /\ fle (emag M (a i j)) (emag M2 (b i j))) ->
  both_return (matrix_inf_norm M A init) m (matrix_inf_norm M2 B init2) m2 (@fle prec emax).
Proof. exact (@inf_norm_mono). Qed.
Print Assumptions C95_inf_norm_monotone.

Theorem C95_one_norm_monotone : forall prec emax (Hp : Prec_gt_0 prec) (He : Prec_lt_emax prec emax) (O O2 : ops)
    (M : mags O (ieee_r prec emax Hp He)) (M2 : mags O2 (ieee_r prec emax Hp He)) (m : mem O) (m2 : mem O2) A B a b
    (init init2 : binary_float prec emax),
  mat_holds m A a -> mat_holds m2 B b -> ext0 B = ext0 A -> ext1 B = ext1 A ->
  fle init init2 -> init <> B754_infinity true ->
  (forall i j, (i < ext0 A)%nat -> (j < ext1 A)%nat ->
     magnitude (emag M (a i j)) /\ magnitude (emag M2 (b i j)) /\ fle (emag M (a i j)) (emag M2 (b i j))) ->
  both_return (matrix_one_norm M A init) m (matrix_one_norm M2 B init2) m2 (@fle prec emax).
Proof. exact (@one_norm_mono). Qed.
Print Assumptions C95_one_norm_monotone.

(** The 2-norm is not monotone: in double, the norm of (3, 2) is larger than that of (3 + 2^-51, 2). *)
Theorem C95_two_norm_monotone_refuted : exists (m m2 : mem F64) (x y : vec F64) (f g : nat -> F64),
  vec_holds m x f /\ vec_holds m2 y g /\ vext y = vext x /\
  (forall i, (i < vext x)%nat -> magnitude (emag dmag (f i)) /\ magnitude (emag dmag (g i)) /\ fle (emag dmag (f i)) (emag dmag (g i))) /\
  both_return (vector_two_norm_noinit dmag x) m (vector_two_norm_noinit dmag y) m2
    (fun r r' : binary_float 53 1024 => is_finite r = true /\ Bltb r' r = true).
Proof.
  exists (mem_of [fl 3 0; fl 2 0]), (mem_of [fl (3 * 2 ^ 51 + 1) (-51); fl 2 0]), (vec_at 0 2), (vec_at 0 2).
  exists (fv [fl 3 0; fl 2 0]), (fv [fl (3 * 2 ^ 51 + 1) (-51); fl 2 0]).
  split; [concrete|]. split; [concrete|]. split; [reflexivity|]. split.
  - intros [|[|i]] Hi; [| |simpl in Hi; lia]; (split; [split; [apply Babs_idempotent|vm_compute; reflexivity]|]);
      (split; [split; [apply Babs_idempotent|vm_compute; reflexivity]|vm_compute; reflexivity]).
  - eexists. eexists. split; [reflexivity|]. split; [reflexivity|]. split; vm_compute; reflexivity.
Qed.
Print Assumptions C95_two_norm_monotone_refuted.

(** * Scaling by a power of two is exact *)
Theorem C95_abs_sum_scaling : forall prec emax (Hp : Prec_gt_0 prec) (He : Prec_lt_emax prec emax) (O O2 : ops)
    (M : mags O (ieee_r prec emax Hp He)) (M2 : mags O2 (ieee_r prec emax Hp He)) e (m : mem O) (m2 : mem O2) x y f g
    (init init2 : binary_float prec emax),
  arithmetic M = true -> arithmetic M2 = true -> vec_holds m x f -> vec_holds m2 y g -> vext y = vext x ->
  fle (B754_zero false) init -> is_finite init2 = true -> B2R init2 = bpow radix2 e * B2R init ->
  (forall i, (i < vext x)%nat -> scaled_by e (emag M (f i)) (emag M2 (g i))) ->
  both_return (vector_abs_sum M x init) m (vector_abs_sum M2 y init2) m2 (@scales prec emax e).
Proof. exact (@abs_sum_scale). Qed.
Print Assumptions C95_abs_sum_scaling.

Theorem C95_inf_norm_scaling : forall prec emax (Hp : Prec_gt_0 prec) (He : Prec_lt_emax prec emax) (O O2 : ops)
    (M : mags O (ieee_r prec emax Hp He)) (M2 : mags O2 (ieee_r prec emax Hp He)) e (m : mem O) (m2 : mem O2) A B a b
    (init init2 : binary_float prec emax),
  mat_holds m A a -> mat_holds m2 B b -> ext0 B = ext0 A -> ext1 B = ext1 A ->
  fle (B754_zero false) init -> is_finite init2 = true -> B2R init2 = bpow radix2 e * B2R init ->
  (forall i j, (i < ext0 A)%nat -> (j < ext1 A)%nat -> scaled_by e (emag M (a i j)) (emag M2 (b i j))) ->
  both_return (matrix_inf_norm M A init) m (matrix_inf_norm M2 B init2) m2 (@scales prec emax e).
Proof. exact (@inf_norm_scale). Qed.
Print Assumptions C95_inf_norm_scaling.

Theorem C95_one_norm_scaling : forall prec emax (Hp : Prec_gt_0 prec) (He : Prec_lt_emax prec emax) (O O2 : ops)
    (M : mags O (ieee_r prec emax Hp He)) (M2 : mags O2 (ieee_r prec emax Hp He)) e (m : mem O) (m2 : mem O2) A B a b
    (init init2 : binary_float prec emax),
  mat_holds m A a -> mat_holds m2 B b -> ext0 B = ext0 A -> ext1 B = ext1 A ->
  fle (B754_zero false) init -> is_finite init2 = true -> B2R init2 = bpow radix2 e * B2R init ->
  (forall i j, (i < ext0 A)%nat -> (j < ext1 A)%nat -> scaled_by e (emag M (a i j)) (emag M2 (b i j))) ->
  both_return (matrix_one_norm M A init) m (matrix_one_norm M2 B init2) m2 (@scales prec emax e).
Proof. exact (@one_norm_scale). Qed.
Print Assumptions C95_one_norm_scaling.

Theorem C95_two_norm_scaling : forall prec emax (Hp : Prec_gt_0 prec) (He : Prec_lt_emax prec emax) (O : ops)
    (M : mags O (ieee_r prec emax Hp He)) (O2 : ops) (M2 : mags O2 (ieee_r prec emax Hp He)) (m : mem O) (m2 : mem O2) x y f g e,
  vec_holds m x f -> vec_holds m2 y g -> vext y = vext x ->
  (forall i, (i < vext x)%nat -> scaled_by e (emag M (f i)) (emag M2 (g i))) ->
  (1 + INR (vext x)) * (1 + unit_roundoff prec) ^ vext x <= max_finite prec emax ->
  (exists i, (i < vext x)%nat /\ min_normal emax <= fmag M (f i) /\ min_normal emax <= fmag M2 (g i)) ->
  both_return (vector_two_norm_noinit M x) m (vector_two_norm_noinit M2 y) m2 (@scales prec emax e).
Proof. exact (@two_norm_scale). Qed.
Print Assumptions C95_two_norm_scaling.

(** * Only the magnitudes matter, in any arithmetic *)
Theorem C95_abs_sum_signs : forall (O O2 : ops) (F : rops) (M : mags O F) (M2 : mags O2 F) (m : mem O) (m2 : mem O2) x y f g,
  vec_holds m x f -> vec_holds m2 y g -> vext y = vext x ->
  forall init, arithmetic M = arithmetic M2 ->
  (forall i, (i < vext x)%nat -> if arithmetic M then eabs M (f i) = eabs M2 (g i)
     else rabs (ereal M (f i)) = rabs (ereal M2 (g i)) /\ rabs (eimag M (f i)) = rabs (eimag M2 (g i))) ->
  exists r, run (vector_abs_sum M x init) m = Ok r m /\ run (vector_abs_sum M2 y init) m2 = Ok r m2.
Proof. exact (@agree_abs_sum). Qed.
Print Assumptions C95_abs_sum_signs.

Theorem C95_sum_of_squares_signs : forall (O O2 : ops) (F : rops) (M : mags O F) (M2 : mags O2 F) (m : mem O) (m2 : mem O2) x y f g,
  vec_holds m x f -> vec_holds m2 y g -> vext y = vext x -> (forall i, (i < vext x)%nat -> eabs M (f i) = eabs M2 (g i)) ->
  forall init, exists r, run (vector_sum_of_squares M x init) m = Ok r m /\ run (vector_sum_of_squares M2 y init) m2 = Ok r m2.
Proof. exact (@agree_ssq). Qed.
Print Assumptions C95_sum_of_squares_signs.

Theorem C95_two_norm_signs : forall (O O2 : ops) (F : rops) (M : mags O F) (M2 : mags O2 F) (m : mem O) (m2 : mem O2) x y f g,
  vec_holds m x f -> vec_holds m2 y g -> vext y = vext x -> (forall i, (i < vext x)%nat -> eabs M (f i) = eabs M2 (g i)) ->
  forall init, exists r, run (vector_two_norm M x init) m = Ok r m /\ run (vector_two_norm M2 y init) m2 = Ok r m2.
Proof. exact (@agree_two_norm). Qed.
Print Assumptions C95_two_norm_signs.

Theorem C95_frob_norm_signs : forall (O O2 : ops) (F : rops) (M : mags O F) (M2 : mags O2 F) (m : mem O) (m2 : mem O2) A B a b,
  mat_holds m A a -> mat_holds m2 B b -> ext0 B = ext0 A -> ext1 B = ext1 A ->
  (forall i j, (i < ext0 A)%nat -> (j < ext1 A)%nat -> eabs M (a i j) = eabs M2 (b i j)) ->
  forall init, exists r, run (matrix_frob_norm M A init) m = Ok r m /\ run (matrix_frob_norm M2 B init) m2 = Ok r m2.
Proof. exact (@agree_frob). Qed.
Print Assumptions C95_frob_norm_signs.

Theorem C95_inf_norm_signs : forall (O O2 : ops) (F : rops) (M : mags O F) (M2 : mags O2 F) (m : mem O) (m2 : mem O2) A B a b,
  mat_holds m A a -> mat_holds m2 B b -> ext0 B = ext0 A -> ext1 B = ext1 A ->
  (forall i j, (i < ext0 A)%nat -> (j < ext1 A)%nat -> eabs M (a i j) = eabs M2 (b i j)) ->
  forall init, exists r, run (matrix_inf_norm M A init) m = Ok r m /\ run (matrix_inf_norm M2 B init) m2 = Ok r m2.
Proof. exact (@agree_inf_norm). Qed.
Print Assumptions C95_inf_norm_signs.

Theorem C95_one_norm_signs : forall (O O2 : ops) (F : rops) (M : mags O F) (M2 : mags O2 F) (m : mem O) (m2 : mem O2) A B a b,
  mat_holds m A a -> mat_holds m2 B b -> ext0 B = ext0 A -> ext1 B = ext1 A ->
  (forall i j, (i < ext0 A)%nat -> (j < ext1 A)%nat -> eabs M (a i j) = eabs M2 (b i j)) ->
  forall init, exists r, run (matrix_one_norm M A init) m = Ok r m /\ run (matrix_one_norm M2 B init) m2 = Ok r m2.
Proof. exact (@agree_one_norm). Qed.
Print Assumptions C95_one_norm_signs.

(** * Concrete cases *)
Ltac mag64 := split; [apply Babs_idempotent|vm_compute; reflexivity].

(** -2^-53 after 1 is lost in the sum, yet 1 and 2^-53 are still bounded by it; the largest finite number and 2^971 overflow. *)
Example C95_order_case :
  let m : mem F64 := mem_of [fl (-1) 0; fl (-1) (-53)] in
  let f := fv [fl (-1) 0; fl (-1) (-53)] in
  let m2 : mem F64 := mem_of [fl (2 ^ 53 - 1) 971; fl (2 ^ 53 - 1) 971] in
  let f2 := fv [fl (2 ^ 53 - 1) 971; fl (2 ^ 53 - 1) 971] in
  returns (vector_abs_sum dmag (vec_at 0 2) (fl 0 0)) m (fun r : binary_float 53 1024 =>
    B2SF r = B2SF (fl 1 0) /\ tops (fl 0 0 : binary_float 53 1024) 2 (fun i => emag dmag (f i)) r) /\
  returns (vector_two_norm dmag (vec_at 0 2) (fl 0 0)) m2 (fun r : binary_float 53 1024 =>
    B2SF r = SpecFloat.S754_infinity false /\ tops (fl 0 0 : binary_float 53 1024) 2 (fun i => emag dmag (f2 i)) r) /\
  returns (matrix_inf_norm dmag (row_major 0 2 1) (fl 0 0)) m (fun r : binary_float 53 1024 =>
    B2SF r = B2SF (fl 1 0) /\ tops2 (fl 0 0 : binary_float 53 1024) 2 1 (fun i j => emag dmag (melt [[fl (-1) 0]; [fl (-1) (-53)]] i j)) r) /\
  returns (matrix_one_norm dmag (row_major 0 2 1) (fl 1 0)) m (fun r : binary_float 53 1024 =>
    B2SF r = B2SF (fl 2 0) /\ tops2 (fl 1 0 : binary_float 53 1024) 2 1 (fun i j => emag dmag (melt [[fl (-1) 0]; [fl (-1) (-53)]] i j)) r).
Proof.
  intros m f m2 f2. split; [|split; [|split]]; (apply out64_ok; [vm_compute; reflexivity|]).
  - apply (C95_abs_sum 53 1024 prec53 emax1024 F64 dmag m (vec_at 0 2) f (fl 0 0)); [reflexivity|concrete|vm_compute; reflexivity|].
    intros [|[|i]] Hi; [mag64|mag64|simpl in Hi; lia].
  - apply (C95_two_norm 53 1024 prec53 emax1024 F64 dmag m2 (vec_at 0 2) f2 (fl 0 0)); [concrete| |exact ssq64|vm_compute; reflexivity].
    intros [|[|i]] Hi; [| |simpl in Hi; lia]; (split; [mag64|vm_compute; reflexivity]).
  - apply (C95_inf_norm 53 1024 prec53 emax1024 F64 dmag m (row_major 0 2 1) (melt [[fl (-1) 0]; [fl (-1) (-53)]]) (fl 0 0));
      [concrete|vm_compute; reflexivity|].
    intros [|[|i]] [|j] Hi Hj; simpl in Hi, Hj; try lia; mag64.
  - apply (C95_one_norm 53 1024 prec53 emax1024 F64 dmag m (row_major 0 2 1) (melt [[fl (-1) 0]; [fl (-1) (-53)]]) (fl 1 0));
      [concrete|vm_compute; reflexivity|].
    intros [|[|i]] [|j] Hi Hj; simpl in Hi, Hj; try lia; mag64.
Qed.

(** (3, -4) and (-6, 8) = 2 (3, -4) in magnitude. *)
Example C95_scaling_case :
  let m : mem F64 := mem_of [fl 3 0; fl (-4) 0] in let m2 : mem F64 := mem_of [fl (-6) 0; fl 8 0] in
  let f := fv [fl 3 0; fl (-4) 0] in let g := fv [fl (-6) 0; fl 8 0] in
  both_return (vector_two_norm_noinit dmag (vec_at 0 2)) m (vector_two_norm_noinit dmag (vec_at 0 2)) m2
    (fun r r' : binary_float 53 1024 => scales 1 r r') /\
  both_return (vector_abs_sum dmag (vec_at 0 2) (fl 0 0)) m (vector_abs_sum dmag (vec_at 0 2) (fl 0 0)) m2
    (fun r r' : binary_float 53 1024 => scales 1 r r') /\
  both_return (vector_abs_sum dmag (vec_at 0 2) (fl 0 0)) m (vector_abs_sum dmag (vec_at 0 2) (fl 0 0)) m2
    (fun r r' : binary_float 53 1024 => fle r r').
Proof.
  intros m m2 f g.
  assert (S : forall i, (i < 2)%nat -> scaled_by 1 (emag dmag (f i)) (emag dmag (g i))).
  { assert (N : forall z e : Z, (Z.abs z < 2 ^ 53)%Z -> (0 <= e <= 4)%Z -> is_finite (fl z e : binary_float 53 1024) = true /\ B2R (fl z e : binary_float 53 1024) = IZR z * bpow radix2 e).
    { intros z e Hz Hee. pose proof (binary_normalize_correct 53 1024 prec53 emax1024 mode_NE z e false) as K. cbv zeta in K. simpl round_mode in K.
      change (SpecFloat.fexp 53 1024) with (FLT_exp (3 - 1024 - 53) 53) in K.
      assert (G : generic_format radix2 (FLT_exp (3 - 1024 - 53) 53) (F2R (Float radix2 z e))).
      { apply generic_format_FLT. exists (Float radix2 z e); [reflexivity|exact Hz|simpl; lia]. }
      rewrite round_generic in K by auto with typeclass_instances. rewrite Rlt_bool_true in K; [destruct K as (K1 & K2 & _); split; [exact K2|exact K1]|].
      unfold F2R. cbn [Fnum Fexp]. rewrite Rabs_mult, (Rabs_pos_eq (bpow radix2 e)) by apply bpow_ge_0. rewrite <- abs_IZR.
      apply Rlt_le_trans with (bpow radix2 53 * bpow radix2 e).
      - apply Rmult_lt_compat_r; [apply bpow_gt_0|]. change (bpow radix2 53) with (IZR (2 ^ 53)). apply IZR_lt. exact Hz.
      - rewrite <- bpow_plus. apply bpow_le. lia. }
    intros [|[|i]] Hi; [| |lia]; (split; [mag64|]); (split; [mag64|]); (split; [vm_compute; reflexivity|]); (split; [vm_compute; reflexivity|]);
      cbv [emag eabs dmag f g fv nth]; rewrite !B2R_Babs.
    - rewrite (proj2 (N 3%Z 0%Z ltac:(lia) ltac:(lia))), (proj2 (N (-6)%Z 0%Z ltac:(lia) ltac:(lia))). simpl. rewrite !Rmult_1_r. unfold Rabs. destruct (Rcase_abs _), (Rcase_abs _); lra.
    - rewrite (proj2 (N (-4)%Z 0%Z ltac:(lia) ltac:(lia))), (proj2 (N 8%Z 0%Z ltac:(lia) ltac:(lia))). simpl. rewrite !Rmult_1_r. unfold Rabs. destruct (Rcase_abs _), (Rcase_abs _); lra. }
  split; [|split].
  - apply (C95_two_norm_scaling 53 1024 prec53 emax1024 F64 dmag F64 dmag m m2 (vec_at 0 2) (vec_at 0 2) f g 1%Z);
      [concrete|concrete|reflexivity|exact S|exact ssq64|].
    exists 0%nat. split; [simpl; lia|].
    assert (L : forall z : binary_float 53 1024, fle (fl 1 0 : binary_float 53 1024) z -> is_finite z = true -> min_normal 1024 <= B2R z).
    { intros z Lz Fz. apply (fle_ext 53 1024) in Lz. destruct Lz as [(_ & _ & Lz)|[[K _]|[K _]]].
      - eapply Rle_trans; [|exact Lz]. replace (B2R (fl 1 0 : binary_float 53 1024)) with 1.
        + unfold min_normal. change 1 with (bpow radix2 0). apply bpow_le. lia.
        + pose proof (Bone_correct 53 1024 prec53 emax1024) as K. rewrite <- K. f_equal.
      - exfalso. apply (f_equal (@is_finite 53 1024)) in K. vm_compute in K. discriminate.
      - rewrite K in Fz. discriminate. }
    split; apply L; vm_compute; reflexivity.
  - apply (C95_abs_sum_scaling 53 1024 prec53 emax1024 F64 F64 dmag dmag 1%Z m m2 (vec_at 0 2) (vec_at 0 2) f g (fl 0 0) (fl 0 0));
      [reflexivity|reflexivity|concrete|concrete|reflexivity|vm_compute; reflexivity|vm_compute; reflexivity| |exact S].
    replace (B2R (fl 0 0 : binary_float 53 1024)) with 0 by reflexivity. ring.
  - apply (C95_abs_sum_monotone 53 1024 prec53 emax1024 F64 F64 dmag dmag m m2 (vec_at 0 2) (vec_at 0 2) f g (fl 0 0) (fl 0 0));
      [reflexivity|reflexivity|concrete|concrete|reflexivity|vm_compute; reflexivity| |].
    + intros K. apply (f_equal (@is_finite 53 1024)) in K. vm_compute in K. discriminate.
    + intros [|[|i]] Hi; [| |simpl in Hi; lia]; (split; [mag64|split; [mag64|vm_compute; reflexivity]]).
Qed.

(** Flipping a sign changes nothing, even with an infinity or a NaN among the elements. *)
Example C95_signs_case :
  let m : mem F64 := mem_of [fl 3 0; qnan; fl (-4) 0] in let m2 : mem F64 := mem_of [fl (-3) 0; qnan; fl 4 0] in
  exists r, run (vector_two_norm dmag (vec_at 0 3) (fl 1 0)) m = Ok r m /\ run (vector_two_norm dmag (vec_at 0 3) (fl 1 0)) m2 = Ok r m2.
Proof.
  intros m m2. apply (C95_two_norm_signs F64 F64 R64 dmag dmag m m2 (vec_at 0 3) (vec_at 0 3) (fv [fl 3 0; qnan; fl (-4) 0]) (fv [fl (-3) 0; qnan; fl 4 0]));
    [concrete|concrete|reflexivity|].
  intros [|[|[|i]]] Hi; [| | |simpl in Hi; lia]; (apply B2SF_inj; vm_compute; reflexivity).
Qed.

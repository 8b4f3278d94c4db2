(** C17-C19: setup_givens_rotation. *)
From Coq Require Import List Arith Bool ZArith Reals Lra Lia.
From Flocq Require Import Core.Core IEEE754.BinarySingleNaN.
From Verif Require Import Norm SpecR Givens SpecG PfGivens PfGivensC Ieee PfGivensF PfGivensX PfGivensC2.
Local Open Scope R_scope.

(** * C17: real arguments, exact arithmetic *)

(** For all real f, g and every threshold 0 < safmn2 < 1 the call returns; c, s, r form the rotation of
    (f, g) to (r, 0), r^2 = f^2 + g^2, and c > 0 when |f| > |g|. *)
Theorem C17_real_rotation :
  forall dv sq hy (safmn2 : R), exact_div dv -> exact_sqrt sq -> 0 < safmn2 < 1 ->
  forall f g : R,
  ends (fun fuel => @setup_givens_rotation (exactf dv sq hy) safmn2 fuel f g)
    (fun '(c, s, r) =>
       c * f + s * g = r /\ - s * f + c * g = 0 /\ c * c + s * s = 1 /\ r * r = f * f + g * g /\
       (Rabs g < Rabs f -> 0 < c)).
Proof. exact real_setup_correct. Qed.
Print Assumptions C17_real_rotation.

(** Concrete: (3, 4) is mapped to (5, 0); with the threshold 1/2 the arguments are scaled down first. *)
Example C17_example :
  @setup_givens_rotation (exactf Rdiv sqrt (fun x y => sqrt (x * x + y * y))) (1 / 16) 1 3 4 = Some (3 / 5, 4 / 5, 5).
Proof. exact setup_345. Qed.
Example C17_example_scaled :
  exists r, @setup_givens_rotation (exactf Rdiv sqrt (fun x y => sqrt (x * x + y * y))) (1 / 2) 5 3 4 = Some (3 / 5, 4 / 5, r) /\ r = 5.
Proof. exact setup_345_scaled. Qed.

(** When f = 0 or g = 0 the documented special values are returned, in any arithmetic. *)
Theorem C17_special_values :
  forall (F : fops) (safmn2 : F) fuel (f g : F),
  (reqb g r0 = true -> setup_givens_rotation safmn2 fuel f g = Some (r1, r0, f)) /\
  (reqb g r0 = false -> reqb f r0 = true -> setup_givens_rotation safmn2 fuel f g = Some (r0, r1, g)).
Proof. exact real_special. Qed.
Print Assumptions C17_special_values.

(** * C18: complex arguments, exact arithmetic *)

(** c and s annihilate g for all arguments; c^2 + |s|^2 is 1 up to safmin / safmn2^2 (machine epsilon), and
    exactly 1 unless |f|^2 <= (safmin / safmn2^2) |g|^2 with f nonzero.  r is c f + s g provided
    max(|re f|, |im f|, |re g|, |im g|) > safmn2^2 (or one of the arguments is zero).
    Missing: r below that bound; there it is wrong, see C18_complex_rotation_refuted. *)
Theorem C18_complex_rotation_partial :
  forall dv sq hy (safmn2 safmin : R), exact_div dv -> exact_sqrt sq -> exact_hypot hy ->
  0 < safmn2 < 1 -> 0 < safmin <= safmn2 * safmn2 ->
  forall f g : R * R,
  ends (fun fuel => @setup_givens_rotation_complex (exactf dv sq hy) safmin safmn2 fuel f g)
    (fun '(c, s, r) =>
       annihilates f g c s /\
       1 <= c * c + cx_sq s <= 1 + safmin / (safmn2 * safmn2) /\
       (f = (0, 0) \/ safmin * cx_sq g < safmn2 * safmn2 * cx_sq f -> c * c + cx_sq s = 1) /\
       (f = (0, 0) \/ g = (0, 0) \/ safmn2 * safmn2 < Rmax (cx_max f) (cx_max g) -> maps_to f g c s r)).
Proof. exact complex_setup_correct. Qed.
Print Assumptions C18_complex_rotation_partial.

(** Concrete case meeting every hypothesis. *)
Example C18_example :
  0 < 1 / 16 < 1 /\ 0 < 1 / 1024 <= 1 / 16 * (1 / 16) /\
  1 / 1024 * cx_sq (0, 4) < 1 / 16 * (1 / 16) * cx_sq (3, 0) /\
  1 / 16 * (1 / 16) < Rmax (cx_max (3, 0)) (cx_max (0, 4)).
Proof. exact complex_example. Qed.

(** Whatever the thresholds, there are arguments for which the call returns an r different from c f + s g:
    the loop that undoes the scaling of small arguments (blas1_givens.hpp:366) does not run when the
    arguments were scaled more than once. *)
Theorem C18_complex_rotation_refuted :
  forall dv sq hy (safmn2 safmin : R), exact_div dv -> exact_sqrt sq ->
  0 < safmn2 < 1 -> 0 < safmin <= safmn2 * safmn2 ->
  exists f g : R * R,
    f <> (0, 0) /\ g <> (0, 0) /\
    ends (fun fuel => @setup_givens_rotation_complex (exactf dv sq hy) safmin safmn2 fuel f g)
      (fun '(c, s, r) => ~ maps_to f g c s r).
Proof. exact complex_setup_wrong. Qed.
Print Assumptions C18_complex_rotation_refuted.

(** Where the partial theorem says nothing about r the call is always wrong, so its bound is exact: for nonzero
    arguments with |f|^2 > (safmin / safmn2^2) |g|^2, r is c f + s g if and only if the largest component exceeds
    safmn2^2; otherwise r is too large by safmn2^-n for some n of at least 2. *)
Theorem C18_r_right_iff :
  forall dv sq hy (safmn2 safmin : R), exact_div dv -> exact_sqrt sq -> exact_hypot hy ->
  0 < safmn2 < 1 -> 0 < safmin <= safmn2 * safmn2 ->
  forall f g : R * R, f <> (0, 0) -> g <> (0, 0) -> safmin * cx_sq g < safmn2 * safmn2 * cx_sq f ->
  ends (fun fuel => @setup_givens_rotation_complex (exactf dv sq hy) safmin safmn2 fuel f g)
    (fun '(c, s, r) =>
       (maps_to f g c s r <-> safmn2 * safmn2 < Rmax (cx_max f) (cx_max g)) /\
       (Rmax (cx_max f) (cx_max g) <= safmn2 * safmn2 ->
        exists n t, (2 <= n)%nat /\ maps_to f g c s t /\ r = (fst t * (/ safmn2) ^ n, snd t * (/ safmn2) ^ n))).
Proof. exact complex_r_iff. Qed.
Print Assumptions C18_r_right_iff.
Example C18_r_right_iff_case :
  ends (fun fuel => @setup_givens_rotation_complex (exactf Rdiv sqrt (fun x y => sqrt (x * x + y * y))) (1 / 1024) (1 / 16) fuel
          (1 / 512, 0) (0, 1 / 512))
    (fun '(c, s, r) => ~ maps_to (1 / 512, 0) (0, 1 / 512) c s r).
Proof.
  destruct (C18_r_right_iff Rdiv sqrt (fun x y => sqrt (x * x + y * y)) (1 / 16) (1 / 1024)) with (f := (1 / 512, 0)) (g := (0, 1 / 512))
    as (((c, s), r) & ((K & _) & _) & E); try (intros x y; reflexivity); try (intros x Hx; reflexivity); try (intros x y Hx; reflexivity);
    unfold cx_sq; simpl; try lra; try (intros E; injection E; lra).
  exists (c, s, r). split; auto. intros H. apply K in H. unfold cx_max in H. simpl in H.
  rewrite !Rabs_R0, !(Rabs_right (1 / 512)) in H by lra. unfold Rmax in H. repeat destruct (Rle_dec _ _); lra.
Qed.

(** The same in binary64: for f = g = 2^-1000 the returned r exceeds 2^-31, about 10^292 times too large. *)
Example C18_binary64_example :
  let tiny := pow2_64 (-1000) in
  match @setup_givens_rotation_complex (ieee 53 1024 _ _ (fun x _ => x)) (pow2_64 (-1022)) (pow2_64 (-485)) 3
          (tiny, B754_zero false) (tiny, B754_zero false) with
  | Some (_, _, r) => Bleb (pow2_64 (-31)) (fst r) = true
  | None => False
  end.
Proof. vm_compute. reflexivity. Qed.

(** * C19: termination in IEEE-754 arithmetic *)

(** No infinite argument: both functions return, after at most three rounds of scaling.
    Missing: infinite arguments, for which the claim is false (see the refutations). *)
Theorem C19_real_returns_partial :
  forall prec emax (Hp : Prec_gt_0 prec) (He : Prec_lt_emax prec emax) hypot e (safmn2 : binary_float prec emax),
  B2R safmn2 = bpow radix2 (- e) -> (0 < e)%Z -> (emax < 4 * e)%Z -> (- (3 - emax - prec) < 4 * e)%Z ->
  (3 * e + (3 - emax - prec) < emax)%Z ->
  forall f g : binary_float prec emax, is_inf prec emax f = false -> is_inf prec emax g = false ->
  exists x, forall fuel, (3 <= fuel)%nat ->
    @setup_givens_rotation (ieee prec emax Hp He hypot) safmn2 fuel f g = Some x.
Proof. exact real_ends. Qed.
Print Assumptions C19_real_returns_partial.

Theorem C19_complex_returns_partial :
  forall prec emax (Hp : Prec_gt_0 prec) (He : Prec_lt_emax prec emax) hypot e (safmn2 : binary_float prec emax),
  B2R safmn2 = bpow radix2 (- e) -> (0 < e)%Z -> (emax < 4 * e)%Z -> (- (3 - emax - prec) < 4 * e)%Z ->
  (3 * e + (3 - emax - prec) < emax)%Z ->
  forall safmin : binary_float prec emax,
  (* hypot of a NaN and a number that is not infinite is NaN *)
  (forall x y, is_nan x = true \/ is_nan y = true ->
     is_inf prec emax x = false -> is_inf prec emax y = false -> is_nan (hypot x y) = true) ->
  forall f g : binary_float prec emax * binary_float prec emax,
  is_inf prec emax (fst f) = false /\ is_inf prec emax (snd f) = false ->
  is_inf prec emax (fst g) = false /\ is_inf prec emax (snd g) = false ->
  exists x, forall fuel, (3 <= fuel)%nat ->
    @setup_givens_rotation_complex (ieee prec emax Hp He hypot) safmin safmn2 fuel f g = Some x.
Proof. exact complex_ends. Qed.
Print Assumptions C19_complex_returns_partial.

(** The hypotheses hold of double with safmn2 = 2^-485 and of float with safmn2 = 2^-51, the values computed
    by blas1_givens.hpp:141-142. *)
Example C19_binary64 :
  B2R (pow2_64 (-485)) = bpow radix2 (- 485) /\ (0 < 485)%Z /\ (1024 < 4 * 485)%Z /\
  (- (3 - 1024 - 53) < 4 * 485)%Z /\ (3 * 485 + (3 - 1024 - 53) < 1024)%Z.
Proof. exact binary64_ok. Qed.
Example C19_binary32 :
  B2R (pow2_32 (-51)) = bpow radix2 (- 51) /\ (0 < 51)%Z /\ (128 < 4 * 51)%Z /\
  (- (3 - 128 - 24) < 4 * 51)%Z /\ (3 * 51 + (3 - 128 - 24) < 128)%Z.
Proof. exact binary32_ok. Qed.
Example C19_hypot :
  forall x y : binary64, is_nan x = true \/ is_nan y = true ->
  is_inf _ _ x = false -> is_inf _ _ y = false -> is_nan (Bplus (prec_lt_emax_ := emax1024) mode_NE x y) = true.
Proof. intros [] []; simpl; intros [|]; auto; discriminate. Qed.

(** An infinite f with any g other than zero, or an infinite g with any f that is neither zero nor NaN:
    the call never returns. *)
Theorem C19_real_returns_refuted :
  forall prec emax (Hp : Prec_gt_0 prec) (He : Prec_lt_emax prec emax) hypot e (safmn2 : binary_float prec emax),
  B2R safmn2 = bpow radix2 (- e) -> (0 < e)%Z -> (emax < 4 * e)%Z -> (- (3 - emax - prec) < 4 * e)%Z ->
  (3 * e + (3 - emax - prec) < emax)%Z ->
  (exists f g : binary_float prec emax, forall fuel,
     @setup_givens_rotation (ieee prec emax Hp He hypot) safmn2 fuel f g = None) /\
  forall f g : binary_float prec emax,
  is_zero prec emax f = false -> is_zero prec emax g = false ->
  is_inf prec emax f = true \/ (is_inf prec emax g = true /\ is_nan f = false) ->
  forall fuel, @setup_givens_rotation (ieee prec emax Hp He hypot) safmn2 fuel f g = None.
Proof. exact real_infinite. Qed.
Print Assumptions C19_real_returns_refuted.

Theorem C19_complex_returns_refuted :
  forall prec emax (Hp : Prec_gt_0 prec) (He : Prec_lt_emax prec emax) hypot e (safmn2 : binary_float prec emax),
  B2R safmn2 = bpow radix2 (- e) -> (0 < e)%Z -> (emax < 4 * e)%Z -> (- (3 - emax - prec) < 4 * e)%Z ->
  (3 * e + (3 - emax - prec) < emax)%Z ->
  forall safmin : binary_float prec emax,
  (exists f g : binary_float prec emax * binary_float prec emax, forall fuel,
     @setup_givens_rotation_complex (ieee prec emax Hp He hypot) safmin safmn2 fuel f g = None) /\
  forall f g : binary_float prec emax * binary_float prec emax,
  is_inf prec emax (fst f) = true \/ (is_inf prec emax (snd f) = true /\ is_nan (fst f) = false) ->
  forall fuel, @setup_givens_rotation_complex (ieee prec emax Hp He hypot) safmin safmn2 fuel f g = None.
Proof. exact complex_infinite. Qed.
Print Assumptions C19_complex_returns_refuted.

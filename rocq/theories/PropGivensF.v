(** C74: plane rotations in IEEE-754 arithmetic, for every binary format with at least four bits.
    [safmn2] is the power of two 2^-k computed by blas1_givens.hpp:141-142; k is 485 for double and 51 for float. *)
From Coq Require Import List Arith ZArith Reals Lia Lra Bool.
From Flocq Require Import Core.Core IEEE754.BinarySingleNaN.
From Verif Require Import Mem Scalar View Spec SpecR SpecF SpecF2 SpecGF Norm Givens Ieee Blas1 PfGivensX PfGivensE Inst PropFloat.
Import ListNotations.
Local Open Scope R_scope.

(** Both arguments finite and not zero: c, s and r have a relative error of a few units in the last place (plus the
    effect of underflow), the documented signs, and r overflows only if the length of (f, g) nearly does. *)
Theorem C74_rotation : forall prec emax (Hp : Prec_gt_0 prec) (He : Prec_lt_emax prec emax) hypot k (safmn2 : binary_float prec emax),
  B2R safmn2 = bpow radix2 (- k) -> (4 <= prec)%Z -> (1 <= k)%Z -> (2 * k <= emax - prec - 1)%Z ->
  forall fuel f g c s r, is_finite f = true -> is_finite g = true -> B2R f <> 0 -> B2R g <> 0 ->
  @setup_givens_rotation (ieee prec emax Hp He hypot) safmn2 fuel f g = Some (c, s, r) ->
  accurate_rotation f g c s r.
Proof. exact givens_float. Qed.
Print Assumptions C74_rotation.

(** All finite arguments: c^2 + s^2 = 1, (f, g) is rotated to (r, 0), up to rounding. *)
Theorem C74_rotates : forall prec emax (Hp : Prec_gt_0 prec) (He : Prec_lt_emax prec emax) hypot k (safmn2 : binary_float prec emax),
  B2R safmn2 = bpow radix2 (- k) -> (4 <= prec)%Z -> (1 <= k)%Z -> (2 * k <= emax - prec - 1)%Z ->
  forall fuel f g c s r, is_finite f = true -> is_finite g = true ->
  @setup_givens_rotation (ieee prec emax Hp He hypot) safmn2 fuel f g = Some (c, s, r) ->
  let R := radius (B2R f) (B2R g) in let eta := half_tiny prec emax in
  Rabs (B2R c * B2R c + B2R s * B2R s - 1) <= gam prec 8 + 21 * eta /\
  Rabs (B2R c * B2R g - B2R s * B2R f) <= (gam prec 4 + 8 * eta) * R /\
  (is_finite r = true -> Rabs (B2R c * B2R f + B2R s * B2R g - B2R r) <= (gam prec 4 + gam prec 3 + 8 * eta) * R + 2 * eta).
Proof. exact givens_orthogonal. Qed.
Print Assumptions C74_rotates.

(** A zero argument: no error at all. *)
Theorem C74_exact : forall prec emax (Hp : Prec_gt_0 prec) (He : Prec_lt_emax prec emax) hypot (safmn2 : binary_float prec emax)
  (f g c s r : binary_float prec emax) fuel, is_finite f = true -> is_finite g = true -> B2R f = 0 \/ B2R g = 0 ->
  @setup_givens_rotation (ieee prec emax Hp He hypot) safmn2 fuel f g = Some (c, s, r) ->
  (is_finite c = true /\ is_finite s = true /\ is_finite r = true) /\
  B2R c * B2R c + B2R s * B2R s = 1 /\ B2R c * B2R g - B2R s * B2R f = 0 /\ B2R c * B2R f + B2R s * B2R g = B2R r.
Proof. exact exact_1. Qed.
Print Assumptions C74_exact.

(** Applying a rotation: each new element within two roundings of the exact one. *)
Theorem C74_apply : forall prec emax (Hp : Prec_gt_0 prec) (He : Prec_lt_emax prec emax) (m : mem (ieee_ops prec emax Hp He)) x y
  (f g : nat -> binary_float prec emax) (c s : binary_float prec emax),
  vext x = vext y -> vec_holds (O := ieee_ops prec emax Hp He) m x f -> vec_holds (O := ieee_ops prec emax Hp He) m y g ->
  vwritable x -> vwritable y -> disjoint (vcells x) (vcells y) ->
  succeeds (@apply_givens_rotation (ieee_ops prec emax Hp He) x y c s) m (fun _ m' =>
    exists f' g' : nat -> binary_float prec emax,
    vec_holds (O := ieee_ops prec emax Hp He) m' x f' /\ vec_holds (O := ieee_ops prec emax Hp He) m' y g' /\
    (forall i, (i < vext x)%nat ->
       approximates 2 (is_finite c = true /\ is_finite s = true /\ is_finite (f i) = true /\ is_finite (g i) = true)
         (B2R c * B2R (f i) + B2R s * B2R (g i)) (Rabs (B2R c) * Rabs (B2R (f i)) + Rabs (B2R s) * Rabs (B2R (g i)))
         (2 * half_tiny prec emax) (f' i) /\
       approximates 2 (is_finite c = true /\ is_finite s = true /\ is_finite (f i) = true /\ is_finite (g i) = true)
         (B2R c * B2R (g i) - B2R s * B2R (f i)) (Rabs (B2R c) * Rabs (B2R (g i)) + Rabs (B2R s) * Rabs (B2R (f i)))
         (2 * half_tiny prec emax) (g' i)) /\
    changes_only m m' (fun a => vcells x a \/ vcells y a)).
Proof. exact (@apply_float). Qed.
Print Assumptions C74_apply.

(** The two formats of the code: the hypotheses on safmn2. *)
Example C74_formats :
  (B2R (pow2_64 (-485)) = bpow radix2 (- 485) /\ 2 * 485 <= 1024 - 53 - 1)%Z /\
  (B2R (pow2_32 (-51)) = bpow radix2 (- 51) /\ 2 * 51 <= 128 - 24 - 1)%Z.
Proof. split; (split; [apply binary64_ok || apply binary32_ok | lia]). Qed.

Lemma strict_nonzero : forall x : binary64, is_finite_strict x = true -> is_finite x = true /\ B2R x <> 0.
Proof. intros [| | |s m e H]; try discriminate. split; auto. apply F2R_neq_0. destruct s; discriminate. Qed.

(** Scalars of the concrete cases: binary64, with a stand-in for hypot, which the real version does not call. *)
Definition G64 := ieee 53 1024 prec53 emax1024 (fun x _ => x).

(** Double, (-3, 2) 2^600, scaled down twice and back: none of c, s, r is exact; c > 0 > s and r < 0 since |f| > |g|. *)
Example C74_rotation_case :
  let f := fl (-3) 600 in let g := fl 2 600 in
  exists c s r, @setup_givens_rotation G64 (pow2_64 (-485)) 3 f g = Some (c, s, r) /\
  Bltb (r : binary64) (fl (-7) 599) = true /\ Bltb (fl (-15) 598) (r : binary64) = true /\ Bltb (s : binary64) (fl (-1) (-1)) = true /\
  accurate_rotation f g c s r.
Proof.
  intros.
  assert (match @setup_givens_rotation G64 (pow2_64 (-485)) 3 f g with
          | Some (_, s, r) => Bltb (r : binary64) (fl (-7) 599) && Bltb (fl (-15) 598) (r : binary64) && Bltb (s : binary64) (fl (-1) (-1))
          | None => false end = true) as E by (vm_compute; reflexivity).
  destruct (@setup_givens_rotation G64 (pow2_64 (-485)) 3 f g) as [[[c s] r]|] eqn:H; [|discriminate].
  apply andb_prop in E. destruct E as [E E3]. apply andb_prop in E. destruct E as [E1 E2].
  exists c, s, r. repeat (split; [first [reflexivity | assumption]|]).
  assert (is_finite_strict (f : binary64) = true) as Ff by (vm_compute; reflexivity).
  assert (is_finite_strict (g : binary64) = true) as Fg by (vm_compute; reflexivity).
  destruct (strict_nonzero _ Ff) as [F1 F2]. destruct (strict_nonzero _ Fg) as [G1 G2].
  refine (C74_rotation 53 1024 _ _ _ 485 (pow2_64 (-485)) _ _ _ _ 3 f g c s r F1 G1 F2 G2 H); [apply binary64_ok|lia..].
Qed.

(** The rotation (3/5, 4/5) rounded, applied to x = (5, 0) and y = (0, 5) in double. *)
Example C74_apply_case :
  let c := Bdiv mode_NE (fl 3 0) (fl 5 0) : binary64 in let s := Bdiv mode_NE (fl 4 0) (fl 5 0) : binary64 in
  let m : mem F64 := mem_of [fl 5 0; fl 0 0; fl 0 0; fl 5 0] in
  match run (@apply_givens_rotation F64 (vec_at 0 2) (vec_at 2 2) c s) m with
  | Ok _ m' => match m' 0%nat, m' 1%nat, m' 2%nat, m' 3%nat with
               | Some a, Some b, Some d, Some e => [B2SF a; B2SF b; B2SF d; B2SF e] = [B2SF (fl 3 0); B2SF (fl 4 0); B2SF (fl (-4) 0); B2SF (fl 3 0)]
               | _, _, _, _ => False end
  | Err _ _ => False
  end.
Proof. vm_compute. reflexivity. Qed.

(** Wrappers, concrete cases and the refutation for setup_givens_rotation. *)
From Coq Require Import List Arith Bool ZArith Reals Lra Lia.
From Flocq Require Import Core.Core IEEE754.BinarySingleNaN.
From Verif Require Import Norm SpecR Givens SpecG PfGivens PfGivensC Ieee PfGivensF.
Local Open Scope R_scope.

Lemma real_setup_correct :
  forall dv sq hy (safmn2 : R), exact_div dv -> exact_sqrt sq -> 0 < safmn2 < 1 ->
  forall f g : R,
  ends (fun fuel => @setup_givens_rotation (exactf dv sq hy) safmn2 fuel f g)
    (fun '(c, s, r) =>
       c * f + s * g = r /\ - s * f + c * g = 0 /\ c * c + s * s = 1 /\ r * r = f * f + g * g /\
       (Rabs g < Rabs f -> 0 < c)).
Proof.
  intros dv sq hy a Hdv Hsq Ha f g.
  destruct (setup_ok dv sq hy Hdv Hsq a Ha f g) as (((c, s), r) & (A & B) & n & Hn).
  exists (c, s, r). split; [|exists n; auto].
  destruct A as (A1 & A2 & A3). repeat split; auto. simpl in *. subst r. nra.
Qed.

Lemma real_special :
  forall (F : fops) (safmn2 : F) fuel (f g : F),
  (reqb g r0 = true -> setup_givens_rotation safmn2 fuel f g = Some (r1, r0, f)) /\
  (reqb g r0 = false -> reqb f r0 = true -> setup_givens_rotation safmn2 fuel f g = Some (r0, r1, g)).
Proof. intros. unfold setup_givens_rotation. split; [intros ->|intros -> ->]; auto. Qed.

Notation E0 := (exactf Rdiv sqrt (fun x y => sqrt (x * x + y * y))).

Lemma sqrt_25 : sqrt (3 * 3 + 4 * 4) = 5.
Proof. replace (3 * 3 + 4 * 4) with (5 * 5) by ring. apply sqrt_square. lra. Qed.

Lemma setup_345 : @setup_givens_rotation E0 (1 / 16) 1 3 4 = Some (3 / 5, 4 / 5, 5).
Proof.
  unfold setup_givens_rotation. simpl.
  destruct (Req_EM_T 4 0); [lra|]. destruct (Req_EM_T 3 0); [lra|].
  unfold scaled_rotation, safmx2, std_max, plain_rotation; simpl.
  rewrite (Rabs_pos_eq 3), (Rabs_pos_eq 4) by lra.
  destruct (Rlt_dec 3 4); [|lra]. destruct (Rle_dec (1 / (1 / 16)) 4); [lra|].
  destruct (Rle_dec 4 (1 / 16)); [lra|]. rewrite sqrt_25. destruct (Rlt_dec 4 3); [lra|]. reflexivity.
Qed.

Lemma setup_345_scaled : exists r, @setup_givens_rotation E0 (1 / 2) 5 3 4 = Some (3 / 5, 4 / 5, r) /\ r = 5.
Proof.
  unfold setup_givens_rotation. simpl.
  destruct (Req_EM_T 4 0); [lra|]. destruct (Req_EM_T 3 0); [lra|].
  unfold scaled_rotation, safmx2, std_max. simpl.
  rewrite (Rabs_pos_eq 3), (Rabs_pos_eq 4) by lra.
  destruct (Rlt_dec 3 4); [|lra]. destruct (Rle_dec (1 / (1 / 2)) 4); [|lra].
  unfold std_max; simpl. rewrite !(Rabs_pos_eq (_ * (1 / 2))) by lra.
  destruct (Rlt_dec (3 * (1 / 2)) (4 * (1 / 2))); [|lra].
  destruct (Rle_dec (safmx2 (F := E0) (1 / 2)) (4 * (1 / 2))) as [|N].
  2:{ exfalso. apply N. unfold safmx2; simpl. lra. }
  destruct (Rlt_dec (3 * (1 / 2) * (1 / 2)) (4 * (1 / 2) * (1 / 2))); [|lra].
  destruct (Rle_dec (safmx2 (F := E0) (1 / 2)) (4 * (1 / 2) * (1 / 2))) as [N|_].
  1:{ exfalso. unfold safmx2 in N; simpl in N. lra. }
  unfold plain_rotation, times; simpl.
  replace (3 * (1 / 2) * (1 / 2) * (3 * (1 / 2) * (1 / 2)) + 4 * (1 / 2) * (1 / 2) * (4 * (1 / 2) * (1 / 2)))
    with ((5 / 4) * (5 / 4)) by field.
  rewrite sqrt_square by lra. destruct (Rlt_dec 4 3); [lra|]. simpl.
  eexists. split; [do 3 f_equal; field|]. unfold safmx2; simpl. field.
Qed.

Lemma complex_setup_correct :
  forall dv sq hy (safmn2 safmin : R), exact_div dv -> exact_sqrt sq -> exact_hypot hy ->
  0 < safmn2 < 1 -> 0 < safmin <= safmn2 * safmn2 ->
  forall f g : R * R,
  ends (fun fuel => @setup_givens_rotation_complex (exactf dv sq hy) safmin safmn2 fuel f g)
    (fun '(c, s, r) =>
       annihilates f g c s /\
       1 <= c * c + cx_sq s <= 1 + safmin / (safmn2 * safmn2) /\
       (f = (0, 0) \/ safmin * cx_sq g < safmn2 * safmn2 * cx_sq f -> c * c + cx_sq s = 1) /\
       (f = (0, 0) \/ g = (0, 0) \/ safmn2 * safmn2 < Rmax (cx_max f) (cx_max g) -> maps_to f g c s r)).
Proof. intros dv sq hy a mi Hdv Hsq Hhy Ha Hmi f g. exact (setup_complex_ok dv sq hy Hdv Hsq Hhy a mi Ha Hmi f g). Qed.

Lemma complex_example :
  0 < 1 / 16 < 1 /\ 0 < 1 / 1024 <= 1 / 16 * (1 / 16) /\
  1 / 1024 * cx_sq (0, 4) < 1 / 16 * (1 / 16) * cx_sq (3, 0) /\
  1 / 16 * (1 / 16) < Rmax (cx_max (3, 0)) (cx_max (0, 4)).
Proof.
  unfold cx_sq; simpl. repeat split; try lra.
  apply Rlt_le_trans with 3; [lra|]. apply Rle_trans with (cx_max (3, 0)); [|apply Rmax_l].
  unfold cx_max; simpl. rewrite (Rabs_pos_eq 3) by lra. apply Rmax_l.
Qed.

Lemma complex_setup_wrong :
  forall dv sq hy (safmn2 safmin : R), exact_div dv -> exact_sqrt sq ->
  0 < safmn2 < 1 -> 0 < safmin <= safmn2 * safmn2 ->
  exists f g : R * R,
    f <> (0, 0) /\ g <> (0, 0) /\
    ends (fun fuel => @setup_givens_rotation_complex (exactf dv sq hy) safmin safmn2 fuel f g)
      (fun '(c, s, r) => ~ maps_to f g c s r).
Proof.
  intros dv sq hy a mi Hdv Hsq Ha Hmi.
  assert (A2 : 0 < a * a < 1) by nra.
  assert (N : (a * a, 0) <> (0, 0)) by (intros E; injection E; lra).
  exists (a * a, 0), (0, a * a). split; [exact N|]. split; [intros E; injection E; lra|].
  (* the result is computed without hypot *)
  assert (Hia : 0 < / a) by (apply Rinv_0_lt_compat; lra).
  pose proof (inv_gt1 a Ha) as Hi.
  assert (X : forall fuel, (2 <= fuel)%nat ->
    @setup_givens_rotation_complex (exactf dv sq hy) mi a fuel (a * a, 0) (0, a * a)
    = Some (@complex_rotation (exactf dv sq hy) mi a (-2) (a * a, 0) (0, a * a) (scl (/ a * / a) (a * a, 0)) (scl (/ a * / a) (0, a * a)))).
  { intros fuel Hf. unfold setup_givens_rotation_complex.
    assert (Es : @std_max (exactf dv sq hy) (@abs1 (exactf dv sq hy) (a * a, 0)) (@abs1 (exactf dv sq hy) (0, a * a)) = a * a).
    { unfold abs1. change (fbase (exactf dv sq hy)) with (exact dv sq). rewrite !smax_exact. simpl.
      rewrite Rabs_R0, !Rabs_pos_eq by lra. rewrite (Rmax_left (a * a) 0), (Rmax_right 0 (a * a)), Rmax_right by lra. auto. }
    rewrite Es, (safmx2_exact dv sq hy Hdv a Ha).
    destruct (rleb_spec dv sq hy (/ a) (a * a)); [lra|].
    destruct (rleb_spec dv sq hy (a * a) a) as [_|C]; [|exfalso; apply C; nra].
    replace (@ciszero (exactf dv sq hy) (0, a * a)) with false.
    2:{ unfold ciszero; simpl. destruct (Req_EM_T 0 0); simpl; auto. destruct (Req_EM_T (a * a) 0); auto; lra. }
    change (@risnan (exactf dv sq hy) ?x) with false. cbn [orb].
    destruct fuel as [|[|fuel]]; [lia|lia|]. cbn [label20]. rewrite !(safmx2_exact dv sq hy Hdv a Ha).
    destruct (rleb_spec dv sq hy (@rmul (exactf dv sq hy) (a * a) (/ a)) a) as [_|C].
    2:{ exfalso; apply C. simpl. rewrite Rmult_assoc, Rinv_r; lra. }
    destruct (rleb_spec dv sq hy (@rmul (exactf dv sq hy) (@rmul (exactf dv sq hy) (a * a) (/ a)) (/ a)) a) as [C|_].
    { exfalso. simpl in C. replace (a * a * / a * / a) with 1 in C by (field; lra). lra. }
    unfold cscale, scl; simpl. do 2 f_equal; f_equal; ring. }
  destruct (@complex_rotation (exactf dv sq hy) mi a (-2) (a * a, 0) (0, a * a) (scl (/ a * / a) (a * a, 0)) (scl (/ a * / a) (0, a * a)))
    as [[c s] r] eqn:E.
  exists (c, s, r). split; [|exists 2%nat; exact X].
  unfold complex_rotation in E. change (@abssq (exactf dv sq hy) ?z) with (cx_sq z) in E.
  assert (S1 : cx_sq (scl (/ a * / a) (a * a, 0)) = 1) by (unfold cx_sq, scl; simpl; field; lra).
  assert (S2 : cx_sq (scl (/ a * / a) (0, a * a)) = 1) by (unfold cx_sq, scl; simpl; field; lra).
  destruct (rleb_spec dv sq hy (cx_sq (scl (/ a * / a) (a * a, 0)))
    (@rmul (exactf dv sq hy) (@std_max (exactf dv sq hy) (cx_sq (scl (/ a * / a) (0, a * a))) (@r1 (exactf dv sq hy))) mi)) as [C|_].
  { exfalso. rewrite S1, S2 in C. simpl in C. rewrite smax_exact, Rmax_left in C by lra. nra. }
  destruct (common_ok dv sq hy Hdv Hsq a Ha (a * a, 0) (0, a * a) (/ a * / a) (-2) c s r) as (An & U & r' & -> & M).
  - nra.
  - unfold cx_sq; simpl. nra.
  - exact E.
  - intros M'. unfold maps_to in M, M'. rewrite M in M'. clear E.
    assert (R1 : r' = (0, 0)).
    { unfold unscale in M'. simpl in M'. unfold times in M'. simpl in M'.
      destruct r' as [x y]. unfold scl in M'; simpl in M'. injection M' as Hx Hy.
      assert (1 < / a * / a) by nra. f_equal; nra. }
    rewrite R1 in M. unfold annihilates in An.
    unfold cx_add, cx_mul, cx_real, cx_opp, cx_conj in M, An. destruct s as [s1 s2]. simpl in M, An.
    unfold cx_sq in U. simpl in U. injection M as M1 M2. injection An as N1 N2. simpl in c.
    assert (s1 = 0) by nra. assert (c = s2) by nra. assert (c = - s2) by nra. nra.
Qed.

Lemma binary64_ok :
  B2R (pow2_64 (-485)) = bpow radix2 (- 485) /\ (0 < 485)%Z /\ (1024 < 4 * 485)%Z /\
  (- (3 - 1024 - 53) < 4 * 485)%Z /\ (3 * 485 + (3 - 1024 - 53) < 1024)%Z.
Proof.
  split; [|lia]. 
  pose proof (Bldexp_correct 53 1024 prec53 emax1024 mode_NE Bone (-485)) as C.
  rewrite Bone_correct, Rmult_1_l in C.
  rewrite round_generic in C; auto with typeclass_instances.
  2:{ apply generic_format_bpow. vm_compute. discriminate. }
  rewrite Rlt_bool_true in C.
  - unfold pow2_64. tauto.
  - rewrite Rabs_pos_eq by apply bpow_ge_0. apply bpow_lt. lia.
Qed.

Lemma binary32_ok :
  B2R (pow2_32 (-51)) = bpow radix2 (- 51) /\ (0 < 51)%Z /\ (128 < 4 * 51)%Z /\
  (- (3 - 128 - 24) < 4 * 51)%Z /\ (3 * 51 + (3 - 128 - 24) < 128)%Z.
Proof.
  split; [|lia].
  pose proof (Bldexp_correct 24 128 prec24 emax128 mode_NE Bone (-51)) as C.
  rewrite Bone_correct, Rmult_1_l in C.
  rewrite round_generic in C; auto with typeclass_instances.
  2:{ apply generic_format_bpow. vm_compute. discriminate. }
  rewrite Rlt_bool_true in C.
  - unfold pow2_32. tauto.
  - rewrite Rabs_pos_eq by apply bpow_ge_0. apply bpow_lt. lia.
Qed.

Lemma real_infinite :
  forall prec emax (Hp : Prec_gt_0 prec) (He : Prec_lt_emax prec emax) hypot e (safmn2 : binary_float prec emax),
  B2R safmn2 = bpow radix2 (- e) -> (0 < e)%Z -> (emax < 4 * e)%Z -> (- (3 - emax - prec) < 4 * e)%Z ->
  (3 * e + (3 - emax - prec) < emax)%Z ->
  (exists f g : binary_float prec emax, forall fuel,
     @setup_givens_rotation (ieee prec emax Hp He hypot) safmn2 fuel f g = None) /\
  forall f g : binary_float prec emax,
  is_zero prec emax f = false -> is_zero prec emax g = false ->
  is_inf prec emax f = true \/ (is_inf prec emax g = true /\ is_nan f = false) ->
  forall fuel, @setup_givens_rotation (ieee prec emax Hp He hypot) safmn2 fuel f g = None.
Proof.
  intros prec emax Hp He hypot e sm H1 H2 H3 H4 H5. split.
  - exists (B754_infinity false), (Bone (prec_gt_0_ := Hp) (prec_lt_emax_ := He)).
    eapply real_never; eauto; [|left; reflexivity].
    pose proof (is_finite_strict_Bone prec emax Hp He). destruct Bone; auto; discriminate.
  - intros. eapply real_never; eauto.
Qed.

Lemma complex_infinite :
  forall prec emax (Hp : Prec_gt_0 prec) (He : Prec_lt_emax prec emax) hypot e (safmn2 : binary_float prec emax),
  B2R safmn2 = bpow radix2 (- e) -> (0 < e)%Z -> (emax < 4 * e)%Z -> (- (3 - emax - prec) < 4 * e)%Z ->
  (3 * e + (3 - emax - prec) < emax)%Z ->
  forall safmin : binary_float prec emax,
  (exists f g : binary_float prec emax * binary_float prec emax, forall fuel,
     @setup_givens_rotation_complex (ieee prec emax Hp He hypot) safmin safmn2 fuel f g = None) /\
  forall f g : binary_float prec emax * binary_float prec emax,
  is_inf prec emax (fst f) = true \/ (is_inf prec emax (snd f) = true /\ is_nan (fst f) = false) ->
  forall fuel, @setup_givens_rotation_complex (ieee prec emax Hp He hypot) safmin safmn2 fuel f g = None.
Proof.
  intros prec emax Hp He hypot e sm H1 H2 H3 H4 H5 mi. split.
  - exists (B754_infinity false, B754_infinity false), (B754_infinity false, B754_infinity false).
    eapply complex_never; eauto. left; reflexivity.
  - intros. eapply complex_never; eauto.
Qed.

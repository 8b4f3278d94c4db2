(** setup_givens_rotation for complex arguments: what r is when it is wrong. *)
From Coq Require Import List Arith Bool ZArith Reals Lra Lia Psatz.
From Verif Require Import Norm SpecR PfNorm Givens SpecG PfGivens PfGivensC PfGivensX.
Local Open Scope R_scope.

Section Cplx.
Variables (dv : R -> R -> R) (sq : R -> R) (hy : R -> R -> R).
Hypothesis Hdv : exact_div dv.
Hypothesis Hsq : exact_sqrt sq.
Notation F := (exactf dv sq hy).
Variables a mi : R.
Hypothesis Ha : 0 < a < 1.
Hypothesis Hmi : 0 < mi <= a * a.

Lemma unscale_down2 : forall n r, @unscale F a (0 - Z.of_nat (S (S n))) r = r.
Proof.
  intros n r. unfold unscale. rewrite (proj2 (Z.eqb_neq _ 0)) by lia. rewrite (proj2 (Z.ltb_ge 0 _)) by lia.
  replace (Z.to_nat (1 - - (0 - Z.of_nat (S (S n))) + 1)) with 0%nat by lia. reflexivity.
Qed.

(** Where c and s are accurate, the common branch is taken. *)
Lemma common_taken : forall f g k, 0 < k -> a < Rmax (cx_max f) (cx_max g) * k ->
  mi * cx_sq g < a * a * cx_sq f ->
  ~ cx_sq (scl k f) <= Rmax (cx_sq (scl k g)) 1 * mi.
Proof.
  intros f g k Hk HM Hfg L.
  pose proof (cx_sq_nonneg f) as Pf. pose proof (cx_sq_nonneg g) as Pg.
  assert (Kk : 0 < k * k) by nra.
  destruct (Rle_or_lt 1 (cx_sq (scl k g))) as [G|G].
  - rewrite Rmax_left in L by auto. rewrite !cx_sq_scl in *.
    assert (cx_sq f <= cx_sq g * mi) by (apply Rmult_le_reg_r with (k * k); auto; lra).
    assert (a * a <= 1) by nra. nra.
  - rewrite Rmax_right in L by lra.
    assert (Hfs : cx_max (scl k f) <= a).
    { pose proof (cx_max_sq (scl k f)). pose proof (cx_max_nonneg (scl k f)). nra. }
    rewrite cx_max_scl in Hfs by auto.
    assert (Hgs : a < cx_max (scl k g)).
    { rewrite cx_max_scl by auto. unfold Rmax in HM. destruct (Rle_dec (cx_max f) (cx_max g)); lra. }
    pose proof (cx_max_sq (scl k g)).
    assert (Hg2 : a * a < cx_sq (scl k g)) by nra.
    rewrite !cx_sq_scl in *.
    assert (a * a * cx_sq f * (k * k) <= mi * cx_sq g * (k * k)); [|nra].
    apply Rle_trans with (a * a * mi); [|nra].
    rewrite Rmult_assoc. apply Rmult_le_compat_l; nra.
Qed.

(** The length of the image of (f, g) is that of (f, g). *)
Lemma image_length : forall f g c s r, maps_to f g c s r -> annihilates f g c s -> c * c + cx_sq s = 1 ->
  cx_sq r = cx_sq f + cx_sq g.
Proof.
  intros [x y] [u v] c [p q] [r1 r2]. unfold maps_to, annihilates, cx_sq, cx_add, cx_mul, cx_real, cx_opp, cx_conj; simpl.
  intros E1 E2 E3. injection E1 as <- <-. injection E2 as N1 N2.
  transitivity ((c * c + (p * p + q * q)) * (x * x + y * y + (u * u + v * v))
    - (- (p * x - - q * y) + (c * u - 0 * v)) * (- (p * x - - q * y) + (c * u - 0 * v))
    - (- (p * y + - q * x) + (c * v + 0 * u)) * (- (p * y + - q * x) + (c * v + 0 * u))); [ring|].
  rewrite N1, N2, E3. ring.
Qed.

Lemma small_r : forall f g : R * R, f <> (0, 0) -> g <> (0, 0) ->
  mi * cx_sq g < a * a * cx_sq f -> Rmax (cx_max f) (cx_max g) <= a * a ->
  ends (fun fuel => @setup_givens_rotation_complex F mi a fuel f g)
    (fun '(c, s, r) => ~ maps_to f g c s r /\
       exists n t, (2 <= n)%nat /\ maps_to f g c s t /\ r = (fst t * (/ a) ^ n, snd t * (/ a) ^ n)).
Proof.
  intros f g Nf Ng Hfg HM. pose proof (inv_gt1 a Ha) as Hi. unfold ends, setup_givens_rotation_complex.
  rewrite (safmx2_exact dv sq hy Hdv a Ha).
  assert (Es : @std_max F (@abs1 F f) (@abs1 F g) = Rmax (cx_max f) (cx_max g)).
  { unfold abs1. change (fbase F) with (exact dv sq). rewrite !smax_exact. reflexivity. }
  rewrite Es. set (M := Rmax (cx_max f) (cx_max g)) in *.
  destruct (rleb_spec dv sq hy (/ a) M) as [L|L]; [exfalso; nra|].
  destruct (rleb_spec dv sq hy M a) as [L2|L2]; [|exfalso; nra].
  destruct (ciszero_spec dv sq hy g) as [E|_]; [contradiction|].
  assert (P : 0 < M).
  { apply Rlt_le_trans with (cx_max g); [|apply Rmax_r]. destruct g as [u v]. unfold cx_max; simpl.
    pose proof (Rmax_l (Rabs u) (Rabs v)). pose proof (Rmax_r (Rabs u) (Rabs v)).
    destruct (Req_dec u 0) as [->|U].
    - destruct (Req_dec v 0) as [->|V]; [tauto|]. apply Rabs_pos_lt in V. lra.
    - apply Rabs_pos_lt in U. lra. }
  destruct (exists_up a Ha M P) as (k & Hk).
  destruct (label20_ends dv sq hy Hdv a mi Ha Hmi k 0 f g M Hk) as (x & Hx). destruct x as [[c' f'] g'].
  destruct (label20_val dv sq hy Hdv a Ha _ _ _ _ _ _ _ _ (Hx (S k) (le_n _))) as (n & -> & -> & -> & V & _).
  destruct n as [|n]. { exfalso. simpl in V. rewrite Rmult_1_r in V. apply Rmult_lt_compat_r with (r := a) in V; [|lra].
    rewrite Rmult_assoc, Rinv_l in V by lra. lra. }
  destruct (@complex_rotation F mi a (0 - Z.of_nat (S (S n))) f g (scl ((/ a) ^ S (S n)) f) (scl ((/ a) ^ S (S n)) g)) as [[c s] r] eqn:E.
  exists (c, s, r). split; [|exists (S k); intros fuel Hfu; simpl; rewrite Hx by auto; rewrite E; auto].
  assert (Kp : 0 < (/ a) ^ S (S n)) by (apply pow_lt; lra).
  unfold complex_rotation in E. change (@abssq F ?z) with (cx_sq z) in E.
  destruct (rleb_spec dv sq hy (cx_sq (scl ((/ a) ^ S (S n)) f)) (@rmul F (@std_max F (cx_sq (scl ((/ a) ^ S (S n)) g)) (@r1 F)) mi)) as [C|_].
  { exfalso. cbn [rmul] in C. simpl in C. rewrite smax_exact in C.
    exact (common_taken f g ((/ a) ^ S (S n)) Kp V Hfg C). }
  assert (Pf : 0 < cx_sq f).
  { destruct (Req_dec (cx_sq f) 0) as [Z0|]; [apply cx_sq_zero in Z0; tauto|]. pose proof (cx_sq_nonneg f). lra. }
  destruct (common_ok dv sq hy Hdv Hsq a Ha f g _ _ c s r Kp Pf E) as (A & B & r' & Er & C).
  rewrite unscale_down2 in Er.
  pose proof (image_length _ _ _ _ _ C A B) as Len. pose proof (cx_sq_nonneg g) as Pg.
  assert (K1 : 1 < (/ a) ^ S (S n)).
  { apply Rlt_pow_R1; [lra|lia]. }
  split.
  - intros C'. unfold maps_to in C, C'. rewrite C in C'. rewrite Er in C'. unfold scl in C'.
    destruct r' as [p q]. cbn [fst snd] in C'. unfold cx_sq in Len at 1. cbn [fst snd] in Len.
    injection C' as C1 C2. set (K := (/ a) ^ S (S n)) in *. 
    assert (Kz : forall z, z = z * K \/ z * K = z -> z = 0).
    { intros z Hz. destruct (Rmult_integral z (K - 1)) as [|]; auto; lra. }
    rewrite (Kz p), (Kz q) in Len by auto. lra.
  - exists (S (S n)), r'. split; [lia|]. split; [exact C|exact Er].
Qed.
End Cplx.

Lemma complex_r_iff :
  forall dv sq hy (safmn2 safmin : R), exact_div dv -> exact_sqrt sq -> exact_hypot hy ->
  0 < safmn2 < 1 -> 0 < safmin <= safmn2 * safmn2 ->
  forall f g : R * R, f <> (0, 0) -> g <> (0, 0) -> safmin * cx_sq g < safmn2 * safmn2 * cx_sq f ->
  ends (fun fuel => @setup_givens_rotation_complex (exactf dv sq hy) safmin safmn2 fuel f g)
    (fun '(c, s, r) =>
       (maps_to f g c s r <-> safmn2 * safmn2 < Rmax (cx_max f) (cx_max g)) /\
       (Rmax (cx_max f) (cx_max g) <= safmn2 * safmn2 ->
        exists n t, (2 <= n)%nat /\ maps_to f g c s t /\ r = (fst t * (/ safmn2) ^ n, snd t * (/ safmn2) ^ n))).
Proof.
  intros dv sq hy a mi Hdv Hsq Hhy Ha Hmi f g Nf Ng Hfg.
  destruct (Rlt_dec (a * a) (Rmax (cx_max f) (cx_max g))) as [C|C].
  - destruct (@complex_setup_correct dv sq hy a mi Hdv Hsq Hhy Ha Hmi f g) as (((c, s), r) & (_ & _ & _ & K) & E).
    exists (c, s, r). split; [|exact E]. split; [|intros; lra]. split; auto.
  - destruct (small_r dv sq hy Hdv Hsq a mi Ha Hmi f g Nf Ng Hfg ltac:(lra)) as (((c, s), r) & (K1 & K2) & E).
    exists (c, s, r). split; [|exact E]. split; [|intros; exact K2]. split; [contradiction|lra].
Qed.

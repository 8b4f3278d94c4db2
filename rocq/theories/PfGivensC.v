(** setup_givens_rotation for complex arguments, in exact arithmetic. *)
From Coq Require Import List Arith Bool ZArith Reals Lra Lia Nsatz.
From Verif Require Import Norm SpecR PfNorm Givens SpecG PfGivens.
Local Open Scope R_scope.

Section Cplx.
Variables (dv : R -> R -> R) (sq : R -> R) (hy : R -> R -> R).
Hypothesis Hdv : exact_div dv.
Hypothesis Hsq : exact_sqrt sq.
Hypothesis Hhy : exact_hypot hy.
Notation F := (exactf dv sq hy).
Variables a mi : R.
Hypothesis Ha : 0 < a < 1.
Hypothesis Hmi : 0 < mi <= a * a.

Definition scl (k : R) (z : R * R) : R * R := (fst z * k, snd z * k).

Lemma scl_scl : forall k l z, scl l (scl k z) = scl (k * l) z.
Proof. intros k l [x y]. unfold scl; simpl. f_equal; ring. Qed.
Lemma scl_1 : forall z, scl 1 z = z.
Proof. intros [x y]. unfold scl; simpl. f_equal; ring. Qed.

Lemma cx_max_scl : forall k z, 0 < k -> cx_max (scl k z) = cx_max z * k.
Proof. intros k [x y] Hk. unfold cx_max, scl; simpl. apply rmax_scale; auto. Qed.
Lemma cx_sq_scl : forall k z, cx_sq (scl k z) = cx_sq z * (k * k).
Proof. intros k [x y]. unfold cx_sq, scl; simpl. ring. Qed.
Lemma cx_sq_nonneg : forall z, 0 <= cx_sq z.
Proof. intros [x y]. unfold cx_sq; simpl. nra. Qed.
Lemma cx_sq_zero : forall z, cx_sq z = 0 -> z = (0, 0).
Proof. intros [x y]. unfold cx_sq; simpl. intros. f_equal; nra. Qed.
Lemma cx_max_nonneg : forall z, 0 <= cx_max z.
Proof. intros [x y]. unfold cx_max; simpl. apply Rle_trans with (Rabs x); [apply Rabs_pos|apply Rmax_l]. Qed.
Lemma cx_max_sq : forall z, cx_max z * cx_max z <= cx_sq z.
Proof.
  intros [x y]. unfold cx_max, cx_sq; simpl.
  pose proof (Rsqr_abs x) as A. pose proof (Rsqr_abs y) as B. unfold Rsqr in *.
  unfold Rmax. destruct (Rle_dec (Rabs x) (Rabs y)); nra.
Qed.

Lemma label10_val : forall fuel count fs gs sc c' fs' gs',
  @label10 F a fuel count fs gs sc = Some (c', fs', gs') -> / a <= sc ->
  exists k, c' = (count + Z.of_nat (S k))%Z /\ fs' = scl (a ^ S k) fs /\ gs' = scl (a ^ S k) gs /\
    1 <= sc * a ^ S k.
Proof.
  induction fuel; intros count fs gs sc c' fs' gs' H Hsc; [discriminate|].
  cbn [label10] in H. rewrite (safmx2_exact dv sq hy Hdv a Ha) in H.
  destruct (rleb_spec dv sq hy (/ a) (@rmul F sc a)) as [L|L].
  - apply IHfuel in H; auto. destruct H as (k & -> & -> & -> & H). exists (S k).
    change (@cscale F ?z a) with (scl a z). rewrite !scl_scl. simpl in H |- *.
    split; [lia|]. split; [f_equal; ring|]. split; [f_equal; ring|]. lra.
  - inversion H; subst. exists 0%nat. change (@cscale F ?z a) with (scl a z). rewrite pow_1.
    split; [lia|]. split; [auto|]. split; [auto|]. replace 1 with (/ a * a) by (field; lra). nra.
Qed.

Lemma label10_ends : forall k count fs gs sc, sc * a ^ S k < / a ->
  exists x, forall fuel, (S k <= fuel)%nat -> @label10 F a fuel count fs gs sc = Some x.
Proof.
  induction k; intros count fs gs sc H.
  - eexists. intros fuel Hf. destruct fuel as [|fuel]; [lia|]. cbn [label10].
    rewrite (safmx2_exact dv sq hy Hdv a Ha).
    destruct (rleb_spec dv sq hy (/ a) (@rmul F sc a)) as [L|_]; [|reflexivity].
    exfalso. simpl in L, H. lra.
  - destruct (rleb_spec dv sq hy (/ a) (@rmul F sc a)) as [L|L].
    + destruct (IHk (count + 1)%Z (@cscale F fs a) (@cscale F gs a) (sc * a)) as (x & Hx).
      { simpl in H |- *. lra. }
      exists x. intros fuel Hf. destruct fuel as [|fuel]; [lia|]. cbn [label10].
      rewrite (safmx2_exact dv sq hy Hdv a Ha).
      destruct (rleb_spec dv sq hy (/ a) (@rmul F sc a)); [|tauto]. apply Hx; lia.
    + eexists. intros fuel Hf. destruct fuel as [|fuel]; [lia|]. cbn [label10].
      rewrite (safmx2_exact dv sq hy Hdv a Ha).
      destruct (rleb_spec dv sq hy (/ a) (@rmul F sc a)); [tauto|reflexivity].
Qed.

Lemma label20_val : forall fuel count fs gs sc c' fs' gs',
  @label20 F a fuel count fs gs sc = Some (c', fs', gs') ->
  exists k, c' = (count - Z.of_nat (S k))%Z /\ fs' = scl ((/ a) ^ S k) fs /\ gs' = scl ((/ a) ^ S k) gs /\
    a < sc * (/ a) ^ S k /\ (a * a < sc -> k = 0%nat).
Proof.
  induction fuel; intros count fs gs sc c' fs' gs' H; [discriminate|].
  cbn [label20] in H. rewrite !(safmx2_exact dv sq hy Hdv a Ha) in H.
  destruct (rleb_spec dv sq hy (@rmul F sc (/ a)) a) as [L|L].
  - apply IHfuel in H; auto. destruct H as (k & -> & -> & -> & H & _). exists (S k).
    change (@cscale F ?z (/ a)) with (scl (/ a) z). rewrite !scl_scl. simpl in H |- *.
    split; [lia|]. split; [f_equal; ring|]. split; [f_equal; ring|]. split; [lra|].
    intros Hs. exfalso. simpl in L. apply Rmult_le_compat_r with (r := a) in L; [|lra].
    rewrite Rmult_assoc, Rinv_l in L by lra. lra.
  - inversion H; subst. exists 0%nat. change (@cscale F ?z (/ a)) with (scl (/ a) z). rewrite pow_1.
    simpl in L. repeat split; auto; try lia. lra.
Qed.

Lemma label20_ends : forall k count fs gs sc, a < sc * (/ a) ^ S k ->
  exists x, forall fuel, (S k <= fuel)%nat -> @label20 F a fuel count fs gs sc = Some x.
Proof.
  induction k; intros count fs gs sc H.
  - eexists. intros fuel Hf. destruct fuel as [|fuel]; [lia|]. cbn [label20].
    rewrite !(safmx2_exact dv sq hy Hdv a Ha).
    destruct (rleb_spec dv sq hy (@rmul F sc (/ a)) a) as [L|_]; [|reflexivity].
    exfalso. simpl in L, H. lra.
  - destruct (rleb_spec dv sq hy (@rmul F sc (/ a)) a) as [L|L].
    + destruct (IHk (count - 1)%Z (@cscale F fs (/ a)) (@cscale F gs (/ a)) (sc * / a)) as (x & Hx).
      { simpl in H |- *. lra. }
      exists x. intros fuel Hf. destruct fuel as [|fuel]; [lia|]. cbn [label20].
      rewrite !(safmx2_exact dv sq hy Hdv a Ha).
      destruct (rleb_spec dv sq hy (@rmul F sc (/ a)) a); [|tauto]. apply Hx; lia.
    + eexists. intros fuel Hf. destruct fuel as [|fuel]; [lia|]. cbn [label20].
      rewrite !(safmx2_exact dv sq hy Hdv a Ha).
      destruct (rleb_spec dv sq hy (@rmul F sc (/ a)) a); [tauto|reflexivity].
Qed.

(** What must hold of the result, when the scale factor was k and the scaling of r was undone iff [good]. *)
Definition rotation_result (f g : R * R) (good : Prop) (c : R) (s r : R * R) : Prop :=
  annihilates f g c s /\ 1 <= c * c + cx_sq s <= 1 + mi / (a * a) /\
  (f = (0, 0) \/ mi * cx_sq g < a * a * cx_sq f -> c * c + cx_sq s = 1) /\
  (good -> maps_to f g c s r).

Lemma common_ok : forall f g k count c s r, 0 < k -> 0 < cx_sq f ->
  @common_case F a count (scl k f) (scl k g) (cx_sq (scl k f)) (cx_sq (scl k g)) = (c, s, r) ->
  annihilates f g c s /\ c * c + cx_sq s = 1 /\
  exists r', r = @unscale F a count (scl k r') /\ maps_to f g c s r'.
Proof.
  intros f g k count c s r Hk Hf H. unfold common_case in H. simpl radd in H.
  assert (P : 0 < cx_sq (scl k f)).
  { rewrite cx_sq_scl. apply Rmult_lt_0_compat; auto. nra. }
  pose proof (cx_sq_nonneg (scl k g)) as Q.
  simpl in H. rewrite (Hdv (cx_sq (scl k g))) in H by lra.
  set (A := cx_sq (scl k f)) in *. set (B := cx_sq (scl k g)) in *.
  assert (W : 0 <= B / A) by (apply Rmult_le_pos; [auto|left; apply Rinv_0_lt_compat; auto]).
  rewrite Hsq in H by lra. set (q := sqrt (1 + B / A)) in *.
  assert (Hq : 0 < q) by (apply sqrt_lt_R0; lra).
  assert (QQ : q * q * A = A + B).
  { unfold q. rewrite sqrt_sqrt by lra. field. lra. }
  rewrite !Hdv in H by lra.
  destruct f as [x y], g as [u v]. unfold cmul, cconj, scl in H. simpl in H.
  inversion H; subst c s r; clear H.
  set (p := / q). assert (Hp : p * q = 1) by (unfold p; field; lra).
  set (e := / (A + B)). assert (He : e * (A + B) = 1) by (unfold e; field; lra).
  unfold Rdiv. fold p e.
  assert (EA : A = (x * x + y * y) * (k * k)) by (unfold A, cx_sq, scl; simpl; ring).
  assert (EB : B = (u * u + v * v) * (k * k)) by (unfold B, cx_sq, scl; simpl; ring).
  assert (K1 : q * e * B = q - p).
  { assert (q * (q * e * B) = q * (q - p)). 2: nra.
    replace (q * (q - p)) with (q * q - 1) by nra. nra. }
  assert (K2 : q * e * A = p) by nra.
  clearbody A B p e q.
  unfold annihilates, maps_to, cx_add, cx_opp, cx_mul, cx_conj, cx_real, cx_sq; simpl.
  split; [f_equal|split].
  - transitivity (u * (p - q * e * ((x * x + y * y) * (k * k)))); [ring|]. rewrite <- EA, K2. ring.
  - transitivity (v * (p - q * e * ((x * x + y * y) * (k * k)))); [ring|]. rewrite <- EA, K2. ring.
  - transitivity (p * p + (q * e * ((x * x + y * y) * (k * k))) * (q * e * ((u * u + v * v) * (k * k)))); [ring|].
    rewrite <- EA, <- EB, K1, K2. nra.
  - exists (q * x, q * y). split.
    + unfold scl; simpl. f_equal. f_equal; ring.
    + f_equal.
      * transitivity (x * (p + q * e * ((u * u + v * v) * (k * k)))); [ring|]. rewrite <- EB, K1. ring.
      * transitivity (y * (p + q * e * ((u * u + v * v) * (k * k)))); [ring|]. rewrite <- EB, K1. ring.
Qed.

Lemma sqrt_scale : forall x k, 0 <= x -> 0 < k -> sqrt (x * (k * k)) = sqrt x * k.
Proof. intros. rewrite sqrt_mult by nra. rewrite sqrt_square by lra. auto. Qed.

Lemma hypot_sq : forall z, hy (fst z) (snd z) = sqrt (cx_sq z).
Proof. intros [x y]. apply Hhy. Qed.

Lemma ciszero_spec : forall z : R * R, reflect (z = (0, 0)) (@ciszero F z).
Proof.
  intros [x y]. unfold ciszero; simpl.
  destruct (Req_EM_T x 0); simpl; [destruct (Req_EM_T y 0)|]; constructor; congruence.
Qed.

Lemma rare_zero_ok : forall g k c s r, 0 < k -> 0 < cx_sq g ->
  @rare_case F a (0, 0) g (scl k (0, 0)) (scl k g) (cx_sq (scl k g)) = (c, s, r) ->
  annihilates (0, 0) g c s /\ c * c + cx_sq s = 1 /\ maps_to (0, 0) g c s r.
Proof.
  intros g k c s r Hk Hg H. unfold rare_case in H.
  destruct (ciszero_spec (0, 0)) as [_|N]; [|congruence].
  change (@rhypot F (fst g) (snd g)) with (hy (fst g) (snd g)) in H.
  change (@rhypot F (fst (scl k g)) (snd (scl k g))) with (hy (fst (scl k g)) (snd (scl k g))) in H.
  rewrite (hypot_sq g), (hypot_sq (scl k g)), cx_sq_scl, sqrt_scale in H by (try apply cx_sq_nonneg; auto).
  set (q := sqrt (cx_sq g)) in *.
  assert (Hq : 0 < q) by (apply sqrt_lt_R0; auto).
  assert (QQ : q * q = cx_sq g) by (apply sqrt_sqrt; lra).
  change (@rdiv F) with dv in H. rewrite !Hdv in H by nra.
  destruct g as [u v]. unfold scl in H. simpl in H. inversion H; subst c s r; clear H.
  unfold cx_sq in QQ; simpl in QQ.
  unfold annihilates, maps_to, cx_add, cx_opp, cx_mul, cx_conj, cx_real, cx_sq; simpl.
  replace (u * k / (q * k)) with (u / q) by (field; lra).
  replace (- (v * k) / (q * k)) with (- v / q) by (field; lra).
  split; [f_equal; ring|split; [|f_equal]].
  - transitivity ((u * u + v * v) / (q * q)); [field; lra|]. rewrite QQ. field. nra.
  - transitivity ((u * u + v * v) / q); [field; lra|]. rewrite <- QQ. field. lra.
  - field. lra.
Qed.

Lemma rare_small_ok : forall f g k c s r, 0 < k -> 0 < cx_sq f -> 0 < cx_sq g ->
  @rare_case F a f g (scl k f) (scl k g) (cx_sq (scl k g)) = (c, s, r) ->
  annihilates f g c s /\ c * c + cx_sq s = 1 + cx_sq f / cx_sq g /\ maps_to f g c s r.
Proof.
  intros f g k c s r Hk Hf Hg H. unfold rare_case in H.
  destruct (ciszero_spec f) as [->|N]. { unfold cx_sq in Hf; simpl in Hf; lra. }
  rewrite (safmx2_exact dv sq hy Hdv a Ha) in H.
  set (w := sqrt (cx_sq f)) in *. set (q := sqrt (cx_sq g)) in *.
  assert (Hw : 0 < w) by (apply sqrt_lt_R0; auto).
  assert (WW : w * w = cx_sq f) by (apply sqrt_sqrt; lra).
  assert (Hq : 0 < q) by (apply sqrt_lt_R0; auto).
  assert (QQ : q * q = cx_sq g) by (apply sqrt_sqrt; lra).
  assert (Hia : 0 < / a) by (apply Rinv_0_lt_compat; lra).
  cbv zeta in H.
  match type of H with context [if ?b then ?x else ?y] =>
    replace (if b then x else y) with ((fst f / w, snd f / w) : R * R) in H
      by (destruct b; simpl;
          [rewrite (hypot_sq f); fold w; rewrite !Hdv by lra; auto
          |replace (hy (/ a * fst f) (/ a * snd f)) with (w * / a);
           [rewrite !Hdv by nra; f_equal; field; lra
           |unfold w; rewrite <- sqrt_scale, <- cx_sq_scl by (try apply cx_sq_nonneg; auto);
            rewrite <- hypot_sq; unfold scl; simpl; f_equal; ring]])
  end.
  change (@rhypot F (fst (scl k f)) (snd (scl k f))) with (hy (fst (scl k f)) (snd (scl k f))) in H.
  rewrite (hypot_sq (scl k f)) in H.
  change (@rsqrt F) with sq in H. rewrite Hsq in H by apply cx_sq_nonneg.
  rewrite !cx_sq_scl, !sqrt_scale in H by (try apply cx_sq_nonneg; auto). fold w q in H.
  change (@rdiv F) with dv in H. rewrite !Hdv in H by nra.
  destruct f as [x y], g as [u v]. unfold scl, cmul, cadd, cscalel in H. simpl in H. inversion H; subst c s r; clear H.
  replace (w * k / (q * k)) with (w / q) by (field; lra).
  replace (u * k / (q * k)) with (u / q) by (field; lra).
  replace (- (v * k) / (q * k)) with (- v / q) by (field; lra).
  unfold cx_sq in QQ, WW; simpl in QQ, WW.
  unfold annihilates, maps_to, cx_add, cx_opp, cx_mul, cx_conj, cx_real, cx_sq; simpl.
  split; [f_equal|split; [|f_equal; ring]].
  - transitivity (u * (w - (x * x + y * y) / w) / q); [field; lra|]. rewrite <- WW. field; lra.
  - transitivity (v * (w - (x * x + y * y) / w) / q); [field; lra|]. rewrite <- WW. field; lra.
  - transitivity (w * w / (q * q) + (x * x + y * y) * (u * u + v * v) / (w * w) / (q * q)); [field; lra|].
    rewrite WW, QQ. field. nra.
Qed.

Lemma unscale_up : forall n r, @unscale F a (Z.of_nat (S n)) r = scl ((/ a) ^ S n) r.
Proof.
  intros n r. unfold unscale. rewrite (proj2 (Z.eqb_neq _ 0)) by lia. rewrite (proj2 (Z.ltb_lt 0 _)) by lia.
  rewrite Nat2Z.id, (safmx2_exact dv sq hy Hdv a Ha).
  generalize (S n). clear n. intros n. revert r. unfold times. induction n; intros r.
  - simpl. rewrite scl_1. auto.
  - simpl Nat.iter. rewrite IHn. change (@cscale F ?z (/ a)) with (scl (/ a) z). rewrite scl_scl.
    f_equal. simpl. ring.
Qed.

Lemma rotation_ok : forall f g k count c s r (good : Prop), 0 < k ->
  a < Rmax (cx_max f) (cx_max g) * k ->
  (good -> forall z, @unscale F a count (scl k z) = z) ->
  @complex_rotation F mi a count f g (scl k f) (scl k g) = (c, s, r) ->
  rotation_result f g (f = (0, 0) \/ good) c s r.
Proof.
  intros f g k count c s r good Hk HM Hgood H. unfold complex_rotation in H.
  assert (Hnz : ~ (f = (0, 0) /\ g = (0, 0))).
  { intros (-> & ->). unfold cx_max in HM; simpl in HM. rewrite Rabs_R0 in HM.
    rewrite !Rmax_left in HM by lra. lra. }
  assert (Ediv : 0 <= mi / (a * a)).
  { apply Rmult_le_pos; [lra|]. left. apply Rinv_0_lt_compat. nra. }
  pose proof (cx_sq_nonneg f) as Pf. pose proof (cx_sq_nonneg g) as Pg.
  assert (Kk : 0 < k * k) by nra.
  change (@abssq F ?z) with (cx_sq z) in H.
  destruct (rleb_spec dv sq hy (cx_sq (scl k f)) (@rmul F (@std_max F (cx_sq (scl k g)) (@r1 F)) mi)) as [L|L].
  - simpl in L. rewrite smax_exact in L.
    destruct (ciszero_spec f) as [->|Nf].
    + assert (0 < cx_sq g). { destruct (Req_dec (cx_sq g) 0) as [E|]; [|lra]. apply cx_sq_zero in E. tauto. }
      destruct (rare_zero_ok g k c s r) as (A & B & C); auto.
      unfold rotation_result. repeat split; auto; lra.
    + assert (P : 0 < cx_sq f). { destruct (Req_dec (cx_sq f) 0) as [E|]; [|lra]. apply cx_sq_zero in E. tauto. }
      (* the ratio of the two scaled squares *)
      assert (Rt : a * a * cx_sq f <= mi * cx_sq g /\ 0 < cx_sq g).
      { destruct (Rle_or_lt 1 (cx_sq (scl k g))) as [G|G].
        - rewrite Rmax_left in L by auto. rewrite !cx_sq_scl in *.
          assert (0 < cx_sq g) by nra. split; auto.
          assert (cx_sq f <= cx_sq g * mi).
          { apply Rmult_le_reg_r with (k * k); auto. lra. }
          apply Rle_trans with (cx_sq f); [|lra]. assert (a * a <= 1) by nra. nra.
        - rewrite Rmax_right in L by lra.
          assert (Hfs : cx_max (scl k f) <= a).
          { pose proof (cx_max_sq (scl k f)). pose proof (cx_max_nonneg (scl k f)). nra. }
          rewrite cx_max_scl in Hfs by auto.
          assert (Hgs : a < cx_max (scl k g)).
          { rewrite cx_max_scl by auto. unfold Rmax in HM. destruct (Rle_dec (cx_max f) (cx_max g)); lra. }
          pose proof (cx_max_sq (scl k g)).
          assert (Hg2 : a * a < cx_sq (scl k g)) by nra.
          rewrite !cx_sq_scl in *. split; [|nra].
          apply Rmult_le_reg_r with (k * k); auto.
          apply Rle_trans with (a * a * mi).
          + rewrite Rmult_assoc. apply Rmult_le_compat_l; nra.
          + nra. }
      destruct Rt as (Rt & G).
      destruct (rare_small_ok f g k c s r) as (A & B & C); auto.
      unfold rotation_result. split; [auto|split; [|split; [|auto]]].
      * rewrite B. assert (0 <= cx_sq f / cx_sq g <= mi / (a * a)); [|lra]. split.
        -- apply Rmult_le_pos; [lra|]. left. apply Rinv_0_lt_compat; auto.
        -- apply Rmult_le_reg_r with (cx_sq g * (a * a)); [nra|].
           replace (cx_sq f / cx_sq g * (cx_sq g * (a * a))) with (a * a * cx_sq f) by (field; lra).
           replace (mi / (a * a) * (cx_sq g * (a * a))) with (mi * cx_sq g) by (field; lra). auto.
      * intros [E|E]; [tauto|lra].
  - simpl in L. rewrite smax_exact in L.
    assert (P : 0 < cx_sq f).
    { pose proof (Rmax_r (cx_sq (scl k g)) 1). rewrite !cx_sq_scl in *. nra. }
    destruct (common_ok f g k count c s r Hk P H) as (A & B & r' & -> & C).
    unfold rotation_result. split; [auto|split; [lra|split; [auto|]]].
    intros [->|Hg]; [unfold cx_sq in P; simpl in P; lra|]. rewrite Hgood; auto.
Qed.

Lemma scl_back : forall k l z, k * l = 1 -> scl l (scl k z) = z.
Proof. intros. rewrite scl_scl, H. apply scl_1. Qed.

Lemma setup_complex_ok : forall f g : R * R,
  ends (fun fuel => @setup_givens_rotation_complex F mi a fuel f g)
    (fun '(c, s, r) =>
       rotation_result f g (f = (0, 0) \/ g = (0, 0) \/ a * a < Rmax (cx_max f) (cx_max g)) c s r).
Proof.
  intros f g. pose proof (inv_gt1 a Ha) as Hi. unfold ends, setup_givens_rotation_complex.
  rewrite (safmx2_exact dv sq hy Hdv a Ha).
  assert (Es : @std_max F (@abs1 F f) (@abs1 F g) = Rmax (cx_max f) (cx_max g)).
  { unfold abs1. change (fbase F) with (exact dv sq). rewrite !smax_exact. reflexivity. }
  rewrite Es. set (M := Rmax (cx_max f) (cx_max g)) in *.
  destruct (rleb_spec dv sq hy (/ a) M) as [L|L].
  - destruct (exists_down a Ha M) as (k & Hk).
    destruct (label10_ends k 0 f g M Hk) as (x & Hx). destruct x as [[c' f'] g'].
    destruct (label10_val _ _ _ _ _ _ _ _ (Hx (S k) (le_n _)) L) as (n & -> & -> & -> & V).
    destruct (@complex_rotation F mi a (0 + Z.of_nat (S n)) f g (scl (a ^ S n) f) (scl (a ^ S n) g)) as [[c s] r] eqn:E.
    exists (c, s, r). split.
    + assert (0 < a ^ S n) by (apply pow_lt; lra).
      assert (RR : rotation_result f g (f = (0, 0) \/ True) c s r);
        [apply (rotation_ok f g (a ^ S n) (0 + Z.of_nat (S n))%Z c s r True ltac:(auto) ltac:(fold M; lra)); [|exact E]|destruct RR as (A & B & C & D)].
      * intros _ z. rewrite Z.add_0_l, unscale_up. apply scl_back. rewrite pow_inv. field. lra.
      * exact (conj A (conj B (conj C (fun _ => D (or_intror I))))).
    + exists (S k). intros fuel Hfu. rewrite Hx by auto. rewrite E. auto.
  - destruct (rleb_spec dv sq hy M a) as [L2|L2].
    + destruct (ciszero_spec g) as [->|Ng].
      * exists (1, (0, 0), f). split; [|exists 0%nat; auto].
        assert (0 <= mi / (a * a)).
        { apply Rmult_le_pos; [lra|]. left. apply Rinv_0_lt_compat. nra. }
        unfold rotation_result, annihilates, maps_to, cx_add, cx_opp, cx_mul, cx_conj, cx_real, cx_sq; simpl.
        destruct f as [x y]; simpl. repeat split; try (intros _); try f_equal; lra.
      * assert (P : 0 < M).
        { apply Rlt_le_trans with (cx_max g); [|apply Rmax_r]. destruct g as [u v]. unfold cx_max; simpl.
          pose proof (Rmax_l (Rabs u) (Rabs v)). pose proof (Rmax_r (Rabs u) (Rabs v)).
          destruct (Req_dec u 0) as [->|U].
          - destruct (Req_dec v 0) as [->|V]; [tauto|]. apply Rabs_pos_lt in V. lra.
          - apply Rabs_pos_lt in U. lra. }
        destruct (exists_up a Ha M P) as (k & Hk).
        destruct (label20_ends k 0 f g M Hk) as (x & Hx). destruct x as [[c' f'] g'].
        destruct (label20_val _ _ _ _ _ _ _ _ (Hx (S k) (le_n _))) as (n & -> & -> & -> & V & W).
        destruct (@complex_rotation F mi a (0 - Z.of_nat (S n)) f g (scl ((/ a) ^ S n) f) (scl ((/ a) ^ S n) g)) as [[c s] r] eqn:E.
        exists (c, s, r). split.
        -- assert (0 < (/ a) ^ S n) by (apply pow_lt; lra).
           assert (RR : rotation_result f g (f = (0, 0) \/ (a * a < M)) c s r);
        [apply (rotation_ok f g ((/ a) ^ S n) (0 - Z.of_nat (S n))%Z c s r (a * a < M) ltac:(auto) ltac:(fold M; lra)); [|exact E]|destruct RR as (A & B & C & D)].
           ++ intros Hm z. rewrite (W Hm). unfold unscale. simpl.
              unfold times; simpl. change (@cscale F ?z a) with (scl a z). apply scl_back. field. lra.
           ++ refine (conj A (conj B (conj C _))). intros [|[|]]; tauto.
        -- exists (S k). intros fuel Hfu. simpl. rewrite Hx by auto. rewrite E. auto.
    + destruct (@complex_rotation F mi a 0 f g f g) as [[c s] r] eqn:E. exists (c, s, r). split; [|exists 0%nat; auto].
      rewrite <- (scl_1 f) in E at 2. rewrite <- (scl_1 g) in E at 2.
      assert (RR : rotation_result f g (f = (0, 0) \/ True) c s r);
        [apply (rotation_ok f g 1 0%Z c s r True ltac:(lra) ltac:(fold M; lra)); [|exact E]|destruct RR as (A & B & C & D)].
      * intros _ z. unfold unscale. simpl. apply scl_1.
      * exact (conj A (conj B (conj C (fun _ => D (or_intror I))))).
Qed.

End Cplx.

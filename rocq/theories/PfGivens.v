(** setup_givens_rotation in exact real arithmetic. *)
From Coq Require Import List Arith Bool ZArith Reals Lra Lia.
From Verif Require Import Norm SpecR PfNorm Givens SpecG.
Local Open Scope R_scope.

Section Real.
Variables (dv : R -> R -> R) (sq : R -> R) (hy : R -> R -> R).
Hypothesis Hdv : exact_div dv.
Hypothesis Hsq : exact_sqrt sq.
Hypothesis Hhy : exact_hypot hy.
Notation F := (exactf dv sq hy).
Variables a : R.
Hypothesis Ha : 0 < a < 1.

Lemma safmx2_exact : @safmx2 F a = / a.
Proof. unfold safmx2; simpl. rewrite Hdv by lra. unfold Rdiv; ring. Qed.

Lemma rleb_spec : forall x y : R, reflect (x <= y) (@rleb F x y).
Proof. intros; simpl. destruct (Rle_dec x y); constructor; auto. Qed.

Lemma smax_exact : forall x y : R, @std_max (exact dv sq) x y = Rmax x y.
Proof.
  intros. unfold std_max; simpl. destruct (Rlt_dec x y).
  - rewrite Rmax_right; lra. - rewrite Rmax_left; lra.
Qed.

Lemma rmax_scale : forall x y k, 0 < k -> Rmax (Rabs (x * k)) (Rabs (y * k)) = Rmax (Rabs x) (Rabs y) * k.
Proof.
  intros. rewrite !Rabs_mult, (Rabs_pos_eq k) by lra. rewrite !(Rmult_comm _ k).
  apply RmaxRmult; lra.
Qed.

Lemma inv_gt1 : 1 < / a.
Proof. rewrite <- Rinv_1. apply Rinv_lt_contravar; lra. Qed.

Lemma scale_down_val : forall fuel count f g c' f' g',
  @scale_down F a fuel count f g = Some (c', f', g') ->
  exists k, c' = (count + k)%nat /\ f' = f * a ^ k /\ g' = g * a ^ k.
Proof.
  induction fuel; intros count f g c' f' g' H; [discriminate|].
  cbn [scale_down] in H. simpl in H.
  match type of H with (if ?b then _ else _) = _ => destruct b end.
  - apply IHfuel in H. destruct H as (k & -> & -> & ->). exists (S k).
    split; [lia|]. simpl; split; ring.
  - inversion H; subst. exists 1%nat. split; [lia|]. simpl; split; ring.
Qed.

Lemma scale_up_val : forall fuel count f g c' f' g',
  @scale_up F a fuel count f g = Some (c', f', g') ->
  exists k, c' = (count + k)%nat /\ f' = f * (/ a) ^ k /\ g' = g * (/ a) ^ k.
Proof.
  induction fuel; intros count f g c' f' g' H; [discriminate|].
  cbn [scale_up] in H. rewrite !safmx2_exact in H. simpl in H.
  match type of H with (if ?b then _ else _) = _ => destruct b end.
  - apply IHfuel in H. destruct H as (k & -> & -> & ->). exists (S k).
    split; [lia|]. simpl; split; ring.
  - inversion H; subst. exists 1%nat. split; [lia|]. simpl; split; ring.
Qed.

Lemma scale_down_ends : forall k count f g,
  Rmax (Rabs f) (Rabs g) * a ^ S k < / a ->
  exists x, forall fuel, (S k <= fuel)%nat -> @scale_down F a fuel count f g = Some x.
Proof.
  induction k; intros count f g H.
  - exists (S count, f * a, g * a). intros fuel Hf. destruct fuel as [|fuel]; [lia|].
    cbn [scale_down]. rewrite safmx2_exact.
    destruct (rleb_spec (/ a) (@std_max F (@rabs F (@rmul F f a)) (@rabs F (@rmul F g a)))) as [L|_]; auto.
    exfalso. simpl in L. rewrite smax_exact, rmax_scale in L by lra. simpl in H. lra.
  - destruct (rleb_spec (/ a) (@std_max F (@rabs F (@rmul F f a)) (@rabs F (@rmul F g a)))) as [L|L].
    + destruct (IHk (S count) (f * a) (g * a)) as (x & Hx).
      { rewrite rmax_scale by lra. simpl in H |- *. lra. }
      exists x. intros fuel Hf. destruct fuel as [|fuel]; [lia|]. cbn [scale_down]. rewrite safmx2_exact.
      destruct (rleb_spec (/ a) (@std_max F (@rabs F (@rmul F f a)) (@rabs F (@rmul F g a)))); [|tauto].
      apply Hx; lia.
    + exists (S count, f * a, g * a). intros fuel Hf. destruct fuel as [|fuel]; [lia|]. cbn [scale_down].
      rewrite safmx2_exact.
      destruct (rleb_spec (/ a) (@std_max F (@rabs F (@rmul F f a)) (@rabs F (@rmul F g a)))); [tauto|auto].
Qed.

Lemma scale_up_ends : forall k count f g,
  a < Rmax (Rabs f) (Rabs g) * (/ a) ^ S k ->
  exists x, forall fuel, (S k <= fuel)%nat -> @scale_up F a fuel count f g = Some x.
Proof.
  pose proof inv_gt1 as Hi.
  induction k; intros count f g H.
  - exists (S count, f * / a, g * / a). intros fuel Hf. destruct fuel as [|fuel]; [lia|].
    cbn [scale_up]. rewrite safmx2_exact.
    destruct (rleb_spec (@std_max F (@rabs F (@rmul F f (/ a))) (@rabs F (@rmul F g (/ a)))) a) as [L|_]; auto.
    exfalso. simpl in L. rewrite smax_exact, rmax_scale in L by lra. simpl in H. lra.
  - destruct (rleb_spec (@std_max F (@rabs F (@rmul F f (/ a))) (@rabs F (@rmul F g (/ a)))) a) as [L|L].
    + destruct (IHk (S count) (f * / a) (g * / a)) as (x & Hx).
      { rewrite rmax_scale by lra. simpl in H |- *. lra. }
      exists x. intros fuel Hf. destruct fuel as [|fuel]; [lia|]. cbn [scale_up]. rewrite safmx2_exact.
      destruct (rleb_spec (@std_max F (@rabs F (@rmul F f (/ a))) (@rabs F (@rmul F g (/ a)))) a); [|tauto].
      apply Hx; lia.
    + exists (S count, f * / a, g * / a). intros fuel Hf. destruct fuel as [|fuel]; [lia|]. cbn [scale_up].
      rewrite safmx2_exact.
      destruct (rleb_spec (@std_max F (@rabs F (@rmul F f (/ a))) (@rabs F (@rmul F g (/ a)))) a); [tauto|auto].
Qed.

Lemma exists_down : forall M, exists k, M * a ^ S k < / a.
Proof.
  intros M. pose proof inv_gt1.
  destruct (Rle_or_lt M 0) as [L|L].
  - exists 0%nat. apply Rle_lt_trans with 0; [|lra]. simpl. nra.
  - destruct (pow_lt_1_zero a (Rabs_def1 _ _ (proj2 Ha) ltac:(lra)) (/ M)) as (N & HN).
    { apply Rinv_0_lt_compat; auto. }
    exists N. specialize (HN (S N) ltac:(lia)). rewrite Rabs_pos_eq in HN by (apply pow_le; lra).
    apply Rmult_lt_compat_l with (r := M) in HN; auto. rewrite Rinv_r in HN; lra.
Qed.

Lemma exists_up : forall M, 0 < M -> exists k, a < M * (/ a) ^ S k.
Proof.
  intros M HM. pose proof inv_gt1.
  destruct (exists_down (/ M)) as (k & Hk). exists k.
  rewrite pow_inv. assert (0 < a ^ S k) by (apply pow_lt; lra).
  assert (0 < / M) by (apply Rinv_0_lt_compat; auto).
  apply Rmult_lt_reg_r with (/ M * a ^ S k).
  - apply Rmult_lt_0_compat; auto.
  - replace (M * / a ^ S k * (/ M * a ^ S k)) with (a * / a) by (field; lra).
    apply Rmult_lt_compat_l; lra.
Qed.

Lemma times_mul : forall n (x k : R), times n (fun r => r * k) x = x * k ^ n.
Proof. induction n; intros; simpl. - ring. - unfold times in *; simpl. rewrite IHn. ring. Qed.

(** The rotation computed from scaled arguments. *)
Lemma plain_ok : forall f g k c s r, f <> 0 -> 0 < k ->
  @plain_rotation F (f * k) (g * k) = (c, s, r) ->
  real_rotation f g c s (r * / k) /\ (0 < f -> 0 < c) /\ (f < 0 -> c < 0).
Proof.
  intros f g k c s r Hf Hk H. unfold plain_rotation in H; simpl in H.
  set (f' := f * k) in *. set (g' := g * k) in *.
  assert (f' <> 0) by (unfold f'; apply Rmult_integral_contrapositive; split; lra).
  assert (P : 0 < f' * f' + g' * g') by nra.
  rewrite Hsq in H by lra. set (q := sqrt (f' * f' + g' * g')) in *.
  assert (Q : 0 < q) by (apply sqrt_lt_R0; auto).
  assert (QQ : q * q = f' * f' + g' * g') by (apply sqrt_sqrt; lra).
  rewrite !Hdv in H by lra. inversion H; subst c s r. clear H.
  assert (Ef : f = f' * / k) by (unfold f'; field; lra).
  assert (Eg : g = g' * / k) by (unfold g'; field; lra).
  unfold real_rotation. repeat split.
  - rewrite Ef, Eg. replace (f' / q * (f' * / k) + g' / q * (g' * / k)) with ((f' * f' + g' * g') / q * / k) by (field; lra).
    rewrite <- QQ. field; lra.
  - rewrite Ef, Eg. field; lra.
  - replace (f' / q * (f' / q) + g' / q * (g' / q)) with ((f' * f' + g' * g') / (q * q)) by (field; lra).
    rewrite <- QQ. field; lra.
  - intros. apply Rdiv_lt_0_compat; auto. unfold f'; nra.
  - intros. unfold Rdiv. assert (0 < / q) by (apply Rinv_0_lt_compat; auto).
    assert (f' < 0) by (unfold f'; nra). nra.
Qed.

Lemma scaled_ok : forall f g, f <> 0 -> g <> 0 ->
  ends (fun fuel => @scaled_rotation F a fuel f g)
    (fun '(c, s, r) => real_rotation f g c s r /\ (0 < f -> 0 < c) /\ (f < 0 -> c < 0)).
Proof.
  intros f g Hf Hg. pose proof inv_gt1 as Hi. unfold ends, scaled_rotation.
  rewrite safmx2_exact.
  assert (P : 0 < Rmax (Rabs f) (Rabs g)).
  { apply Rlt_le_trans with (Rabs f); [apply Rabs_pos_lt; auto|apply Rmax_l]. }
  destruct (rleb_spec (/ a) (@std_max F (@rabs F f) (@rabs F g))) as [L|L].
  - destruct (exists_down (Rmax (Rabs f) (Rabs g))) as (k & Hk).
    destruct (scale_down_ends k 0 f g Hk) as (x & Hx). destruct x as [[c' f'] g'].
    destruct (scale_down_val _ _ _ _ _ _ _ (Hx (S k) (le_n _))) as (n & -> & -> & ->).
    destruct (@plain_rotation F (f * a ^ n) (g * a ^ n)) as [[c s] r] eqn:E.
    exists (c, s, r * (/ a) ^ n). split.
    + destruct (plain_ok f g (a ^ n) c s r Hf ltac:(apply pow_lt; lra) E) as (A & B & C).
      rewrite pow_inv. auto.
    + exists (S k). intros fuel Hfu. rewrite Hx by auto.
      replace (@plain_rotation F _ _) with (c, s, r). simpl. rewrite <- times_mul. reflexivity.
  - destruct (rleb_spec (@std_max F (@rabs F f) (@rabs F g)) a) as [L2|L2].
    + destruct (exists_up _ P) as (k & Hk).
      destruct (scale_up_ends k 0 f g Hk) as (x & Hx). destruct x as [[c' f'] g'].
      destruct (scale_up_val _ _ _ _ _ _ _ (Hx (S k) (le_n _))) as (n & -> & -> & ->).
      destruct (@plain_rotation F (f * (/ a) ^ n) (g * (/ a) ^ n)) as [[c s] r] eqn:E.
      exists (c, s, r * a ^ n). split.
      * destruct (plain_ok f g ((/ a) ^ n) c s r Hf ltac:(apply pow_lt; lra) E) as (A & B & C).
        rewrite pow_inv, Rinv_inv in A. auto.
      * exists (S k). intros fuel Hfu. rewrite Hx by auto.
        replace (@plain_rotation F _ _) with (c, s, r). simpl. rewrite <- times_mul. reflexivity.
    + destruct (@plain_rotation F f g) as [[c s] r] eqn:E. exists (c, s, r). split.
      * rewrite <- (Rmult_1_r f), <- (Rmult_1_r g) in E.
        destruct (plain_ok f g 1 c s r Hf ltac:(lra) E) as (A & B & C).
        rewrite Rinv_1, Rmult_1_r in A. auto.
      * exists 0%nat. auto.
Qed.

Lemma setup_ok : forall f g,
  ends (fun fuel => @setup_givens_rotation F a fuel f g)
    (fun '(c, s, r) => real_rotation f g c s r /\ (Rabs g < Rabs f -> 0 < c)).
Proof.
  intros f g. unfold setup_givens_rotation. simpl.
  destruct (Req_EM_T g 0) as [->|Hg].
  - exists (1, 0, f). split.
    + unfold real_rotation. repeat split; try ring. intros; lra.
    + exists 0%nat; auto.
  - destruct (Req_EM_T f 0) as [->|Hf].
    + exists (0, 1, g). split.
      * unfold real_rotation. repeat split; try ring.
        rewrite Rabs_R0. intros H. pose proof (Rabs_pos g). lra.
      * exists 0%nat; auto.
    + destruct (scaled_ok f g Hf Hg) as (((c, s), r) & (A & B & C) & n & Hn).
      destruct A as (A1 & A2 & A3).
      destruct (Rlt_dec (Rabs g) (Rabs f)); [destruct (Rlt_dec c 0)|].
      * exists (- c, - s, - r). split.
        -- unfold real_rotation. repeat split; nra.
        -- exists n. intros fuel Hfu. rewrite Hn by auto. destruct (Rlt_dec c 0); [|tauto].
           destruct (Rlt_dec (Rabs g) (Rabs f)); [reflexivity|tauto].
      * exists (c, s, r). split.
        -- unfold real_rotation. repeat split; auto. intros _.
           destruct (Rtotal_order f 0) as [T|[T|T]]; [specialize (C T); lra|lra|auto].
        -- exists n. intros fuel Hfu. rewrite Hn by auto. destruct (Rlt_dec c 0); [tauto|].
           rewrite andb_false_r. reflexivity.
      * exists (c, s, r). split.
        -- unfold real_rotation. repeat split; auto. tauto.
        -- exists n. intros fuel Hfu. rewrite Hn by auto.
           destruct (Rlt_dec (Rabs g) (Rabs f)); [tauto|reflexivity].
Qed.

Lemma rotation_norm : forall f g c s r, real_rotation f g c s r -> r * r = f * f + g * g.
Proof. intros f g c s r (A & B & C). subst r. nra. Qed.

End Real.

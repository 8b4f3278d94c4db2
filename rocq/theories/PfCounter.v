(** Lemmas for C84: a loop on a counter of an integer type is the loop on a natural number. *)
From Coq Require Import List Arith NArith ZArith Bool Lia.
From Verif Require Import Mem Scalar View Spec Idx Ints SpecI SpecI2 Wp PfInts PfBlas3 SpecCt Blas1 Blas2 Blas3 Norm Counter.
Import ListNotations.
Set Implicit Arguments.
Local Open Scope Z_scope.

(** * Numbers *)
Lemma width_common : forall s t, 1 <= iwidth s -> 1 <= iwidth t -> 1 <= iwidth (common s t).
Proof.
  intros [a v] [b w]; unfold common, promote; simpl; intros H1 H2.
  destruct (v <? 32) eqn:E1, (w <? 32) eqn:E2; simpl;
    try apply Z.ltb_lt in E1; try apply Z.ltb_lt in E2; try apply Z.ltb_ge in E1; try apply Z.ltb_ge in E2;
    repeat match goal with |- context [if ?c then _ else _] => destruct c end; simpl; lia.
Qed.
Lemma rep_wider : forall s b w z, 1 <= w -> 0 <= z -> representable (IK s w) z -> forall v, w <= v ->
  (b = false \/ w < v \/ s = b) -> representable (IK b v) z.
Proof.
  intros s b w z Hw Hz R v Hv C. unfold representable, in_range, int_max in *. simpl in *.
  assert (P1 := Z.pow_le_mono_r 2 w v ltac:(lia) Hv).
  assert (P2 := Z.pow_le_mono_r 2 (w - 1) (v - 1) ltac:(lia) ltac:(lia)).
  assert (P3 := pow_half w Hw). assert (P4 := @pow_pos (w - 1) ltac:(lia)). assert (P5 := @pow_pos (v - 1) ltac:(lia)).
  destruct b.
  - destruct s.
    + lia.
    + destruct C as [C|[C|C]]; try discriminate.
      assert (P6 := Z.pow_le_mono_r 2 w (v - 1) ltac:(lia) ltac:(lia)). lia.
  - destruct s; lia.
Qed.
Lemma rep_promote : forall t z, 1 <= iwidth t -> 0 <= z -> representable t z -> representable (Ints.promote t) z.
Proof.
  intros [s w] z Hw Hz R. unfold Ints.promote; simpl in *. destruct (w <? 32) eqn:E; auto. apply Z.ltb_lt in E.
  apply rep_wider with (s := s) (w := w); auto; lia.
Qed.
Lemma width_promote : forall t, 1 <= iwidth t -> 1 <= iwidth (Ints.promote t).
Proof. intros [s w] H. unfold Ints.promote; simpl in *. destruct (w <? 32); simpl; lia. Qed.
Lemma rep_common_l : forall s t z, 1 <= iwidth s -> 1 <= iwidth t -> 0 <= z -> representable s z -> representable (common s t) z.
Proof.
  intros s t z Hs Ht Hz R. apply rep_promote in R; auto. apply width_promote in Hs, Ht. unfold common.
  destruct (Ints.promote s) as [a v], (Ints.promote t) as [b w]; simpl in *.
  destruct a, b; simpl.
  - destruct (v <? w) eqn:E; auto. apply Z.ltb_lt in E. apply rep_wider with (s := true) (w := v); auto; lia.
  - destruct (v <=? w) eqn:E; auto. apply Z.leb_le in E. apply rep_wider with (s := true) (w := v); auto; lia.
  - destruct (w <=? v) eqn:E; auto. apply Z.leb_gt in E. apply rep_wider with (s := false) (w := v); auto; lia.
  - destruct (v <? w) eqn:E; auto. apply Z.ltb_lt in E. apply rep_wider with (s := false) (w := v); auto; lia.
Qed.
Lemma rep_common_r : forall s t z, 1 <= iwidth s -> 1 <= iwidth t -> 0 <= z -> representable t z -> representable (common s t) z.
Proof.
  intros s t z Hs Ht Hz R. apply rep_promote in R; auto. apply width_promote in Hs, Ht. unfold common.
  destruct (Ints.promote s) as [a v], (Ints.promote t) as [b w]; simpl in *.
  destruct a, b; simpl.
  - destruct (v <? w) eqn:E; auto. apply Z.ltb_ge in E. apply rep_wider with (s := true) (w := w); auto; lia.
  - destruct (v <=? w) eqn:E; auto. apply Z.leb_gt in E. apply rep_wider with (s := false) (w := w); auto; lia.
  - destruct (w <=? v) eqn:E; auto. apply Z.leb_le in E. apply rep_wider with (s := true) (w := w); auto; lia.
  - destruct (v <? w) eqn:E; auto. apply Z.ltb_ge in E. apply rep_wider with (s := false) (w := w); auto; lia.
Qed.
Lemma rep_le : forall t z z', 1 <= iwidth t -> 0 <= z' <= z -> representable t z -> representable t z'.
Proof.
  intros t z z' Hw H R. unfold representable, in_range, int_max in *. assert (P := @pow_pos (iwidth t - 1) ltac:(lia)).
  destruct (isigned t); lia.
Qed.
Lemma width_common_type : forall s t, 1 <= iwidth s -> 1 <= iwidth t -> 1 <= iwidth (common_type s t).
Proof. intros. unfold common_type. destruct (ikind_eqb s t); auto. apply width_common; auto. Qed.
Lemma rep_common_type_l : forall s t z, 1 <= iwidth s -> 1 <= iwidth t -> 0 <= z -> representable s z -> representable (common_type s t) z.
Proof. intros. unfold common_type. destruct (ikind_eqb s t); auto. apply rep_common_l; auto. Qed.
Lemma rep_common_type_r : forall s t z, 1 <= iwidth s -> 1 <= iwidth t -> 0 <= z -> representable t z -> representable (common_type s t) z.
Proof.
  intros. unfold common_type. destruct (ikind_eqb s t) eqn:E; [apply kind_eq in E; subst; auto|]. apply rep_common_r; auto.
Qed.
Lemma rep_unsigned : forall t z, 1 <= iwidth t -> 0 <= z -> representable t z -> representable (make_unsigned t) z.
Proof. intros [s w] z Hw Hz R. unfold make_unsigned; simpl in *. apply rep_wider with (s := s) (w := w); auto; lia. Qed.

Lemma less_ok : forall T U i n, 1 <= iwidth T -> 1 <= iwidth U -> 0 <= i -> 0 <= n -> representable T i -> representable U n ->
  less T U i n = (i <? n).
Proof.
  intros T U i n HT HU Hi Hn Ri Rn. unfold less. assert (W := @width_common _ _ HT HU).
  rewrite !wrap_id; auto; [apply rep_common_r|apply rep_common_l]; auto.
Qed.
Lemma result_ok : forall t z, 1 <= iwidth t -> representable t z -> result_in t z = Some z.
Proof.
  intros t z Hw R. unfold result_in, representable, in_range, int_max in *. destruct (isigned t).
  - replace (- 2 ^ (iwidth t - 1) <=? z) with true by (symmetry; apply Z.leb_le; lia).
    replace (z <? 2 ^ (iwidth t - 1)) with true by (symmetry; apply Z.ltb_lt; lia). auto.
  - rewrite Z.mod_small; auto; lia.
Qed.
Lemma inc_ok : forall T i, 1 <= iwidth T -> 0 <= i -> representable T (i + 1) -> inc T i = Some (i + 1).
Proof.
  intros T i HT Hi R. unfold inc. assert (W : 1 <= iwidth (common T (IK true 32))) by (apply width_common; simpl; lia).
  assert (R' : representable (common T (IK true 32)) (i + 1)) by (apply rep_common_l; simpl; auto; lia).
  rewrite (wrap_id _ _ W) by (apply rep_le with (z := i + 1); auto; lia).
  rewrite (@result_ok _ _ W R'). simpl. rewrite wrap_id; auto.
Qed.
Lemma dec_ok : forall T i, 1 <= iwidth T -> 0 < i -> representable T i -> dec T i = Some (i - 1).
Proof.
  intros T i HT Hi R. unfold dec. assert (W : 1 <= iwidth (common T (IK true 32))) by (apply width_common; simpl; lia).
  assert (R' : representable (common T (IK true 32)) i) by (apply rep_common_l; simpl; auto; lia).
  rewrite (wrap_id _ _ W R'). rewrite result_ok; auto; [|apply rep_le with (z := i); auto; lia]. simpl.
  rewrite wrap_id; auto. apply rep_le with (z := i); auto; lia.
Qed.
Lemma mirror_ok : forall T U n k, 1 <= iwidth T -> 1 <= iwidth U -> (k < n)%nat -> representable T (Z.of_nat n) ->
  representable U (Z.of_nat n) -> mirror_ T U n k = Some (Z.of_nat (n - (k + 1))).
Proof.
  intros T U n k HT HU Hk RT RU. unfold mirror_. assert (WP := @width_promote _ HT). assert (WC := @width_common _ _ HU WP).
  assert (RP : representable (Ints.promote T) (Z.of_nat n)) by (apply rep_promote; auto; lia).
  rewrite !(wrap_id _ _ WP) by (apply rep_le with (z := Z.of_nat n); auto; lia).
  rewrite (@result_ok _ _ WP) by (apply rep_le with (z := Z.of_nat n); auto; lia).
  assert (RC : representable (common U (Ints.promote T)) (Z.of_nat n)) by (apply rep_common_l; auto; lia).
  rewrite !(wrap_id _ _ WC) by (apply rep_le with (z := Z.of_nat n); auto; lia).
  rewrite (@result_ok _ _ WC) by (apply rep_le with (z := Z.of_nat n); auto; lia). simpl.
  rewrite wrap_id; auto; [f_equal; lia|]. apply rep_le with (z := Z.of_nat n); auto; lia.
Qed.
Lemma kind_width : forall ty, 1 <= iwidth (kind_of ty).
Proof. destruct ty; simpl; lia. Qed.
Lemma wrap_same : forall ty z, wrap ty z = wrap_to (kind_of ty) z.
Proof.
  intros ty z. assert (W := kind_width ty). assert (Hb : 1 <= bits ty) by (destruct ty; simpl; lia).
  apply reduced_unique with (t := kind_of ty) (z := z); auto; [|apply wrap_reduced; auto].
  assert (P := @pow_half (bits ty) Hb). assert (P2 := @pow_pos (bits ty - 1) ltac:(lia)).
  assert (M := Z.mod_pos_bound z (2 ^ bits ty) ltac:(lia)). assert (D := Z.div_mod z (2 ^ bits ty) ltac:(lia)).
  unfold reduced, representable, in_range, int_max, wrap, kind_of. simpl. cbv zeta. destruct (is_signed ty).
  - destruct (z mod 2 ^ bits ty <? 2 ^ (bits ty - 1)) eqn:E; [apply Z.ltb_lt in E|apply Z.ltb_ge in E].
    + split; [lia|]. exists (z / 2 ^ bits ty). lia.
    + split; [lia|]. exists (z / 2 ^ bits ty + 1). lia.
  - split; [lia|]. exists (z / 2 ^ bits ty). lia.
Qed.
Lemma width_unsigned : forall t, 1 <= iwidth t -> 1 <= iwidth (make_unsigned t).
Proof. auto. Qed.

(** * Programs with the same runs *)
Lemma same_refl : forall T A (p : prog T A), same_run p p.
Proof. intros T A p m; reflexivity. Qed.
Lemma same_trans : forall T A (p q r : prog T A), same_run p q -> same_run q r -> same_run p r.
Proof. intros T A p q r H1 H2 m. rewrite H1; auto. Qed.
Lemma same_bind : forall T A B (p q : prog T A) (f g : A -> prog T B),
  same_run p q -> (forall x, same_run (f x) (g x)) -> same_run (bind p f) (bind q g).
Proof. intros T A B p q f g H1 H2 m. rewrite !run_bind, H1. destruct (run q m); auto. apply H2. Qed.
Lemma same_when : forall T b (p q : prog T unit), same_run p q -> same_run (when b p) (when b q).
Proof. intros T [|] p q H; auto. apply same_refl. Qed.

Section Loops.
Context {O : ops}.

Lemma same_from : forall A z z' (f g : nat -> prog O A), z = z' -> (forall n, z' = Z.of_nat n -> same_run (f n) (g n)) ->
  same_run (from_index z f) (from_index z' g).
Proof.
  intros A z z' f g -> H. unfold from_index. destruct (z' <? 0) eqn:E; [apply same_refl|]. apply Z.ltb_ge in E. apply H.
  rewrite Z2Nat.id; auto.
Qed.
Lemma from_nat : forall A n (f : nat -> prog O A), from_index (Z.of_nat n) f = f n.
Proof. intros. unfold from_index. replace (Z.of_nat n <? 0) with false by (symmetry; apply Z.ltb_ge; lia). rewrite Nat2Z.id; auto. Qed.

Lemma loop_fold : forall A T U hi (b b' : nat -> A -> prog O A), 1 <= iwidth T -> 1 <= iwidth U ->
  representable T (Z.of_nat hi) -> representable U (Z.of_nat hi) ->
  forall fuel lo acc, representable T (Z.of_nat lo) -> (hi - lo < fuel)%nat ->
  (forall i a, (lo <= i < hi)%nat -> same_run (b i a) (b' i a)) ->
  same_run (c_loop fuel T U (Z.of_nat lo) (Z.of_nat hi) b acc) (fold_range lo hi b' acc).
Proof.
  intros A T U hi b b' HT HU RT RU. induction fuel as [|f IH]; intros lo acc Rlo Hf Hb; [lia|]. simpl.
  rewrite less_ok; auto; try lia. destruct (Z.of_nat lo <? Z.of_nat hi) eqn:E.
  - apply Z.ltb_lt in E. unfold fold_range. replace (hi - lo)%nat with (S (hi - S lo)) by lia. simpl.
    rewrite from_nat. apply same_bind; [apply Hb; lia|]. intros x.
    rewrite inc_ok; auto; try lia; [|apply rep_le with (z := Z.of_nat hi); auto; lia].
    replace (Z.of_nat lo + 1) with (Z.of_nat (S lo)) by lia. apply IH; [apply rep_le with (z := Z.of_nat hi); auto; lia|lia|].
    intros; apply Hb; lia.
  - apply Z.ltb_ge in E. unfold fold_range. replace (hi - lo)%nat with 0%nat by lia. apply same_refl.
Qed.
Lemma for_fold : forall lo hi (b : nat -> prog O unit), same_run (fold_range lo hi (fun i _ => b i) tt) (for_range lo hi b).
Proof.
  intros lo hi b. unfold for_range, fold_range. generalize (hi - lo)%nat. intros n. revert lo.
  induction n as [|n IH]; intros lo; [apply same_refl|]. simpl. apply same_bind; [apply same_refl|]. intros []. apply IH.
Qed.

Lemma same_fold : forall A fuel T U lo hi lz hz (b b' : nat -> A -> prog O A) acc,
  lz = Some (Z.of_nat lo) -> hz = Some (Z.of_nat hi) ->
  1 <= iwidth T -> 1 <= iwidth U -> representable T (Z.of_nat lo) -> representable T (Z.of_nat hi) ->
  representable U (Z.of_nat hi) -> (hi - lo < fuel)%nat ->
  (forall i a, (lo <= i < hi)%nat -> same_run (b i a) (b' i a)) ->
  same_run (c_fold fuel T lz (U, hz) b acc) (fold_range lo hi b' acc).
Proof. intros. subst. simpl. apply loop_fold; auto. Qed.
Lemma same_for : forall fuel T U lo hi lz hz (b b' : nat -> prog O unit),
  lz = Some (Z.of_nat lo) -> hz = Some (Z.of_nat hi) ->
  1 <= iwidth T -> 1 <= iwidth U -> representable T (Z.of_nat lo) -> representable T (Z.of_nat hi) ->
  representable U (Z.of_nat hi) -> (hi - lo < fuel)%nat ->
  (forall i, (lo <= i < hi)%nat -> same_run (b i) (b' i)) ->
  same_run (c_for fuel T lz (U, hz) b) (for_range lo hi b').
Proof.
  intros. unfold c_for. eapply same_trans; [|apply for_fold]. eapply same_fold; eauto.
Qed.

Lemma less_same : forall T i j, 1 <= iwidth T -> representable T i -> representable T j -> less T T j i = (j <? i).
Proof.
  intros T i j HT Ri Rj. unfold less. rewrite common_arith. assert (W := arith_wide T).
  rewrite !wrap_id; auto; try lia; apply rep_arith; auto.
Qed.
Lemma loop_le : forall T j (b b' : nat -> prog O unit), 1 <= iwidth T -> representable T j -> (0 <= j -> representable T (j + 1)) ->
  forall fuel lo, representable T (Z.of_nat lo) -> (Z.to_nat (j + 1) - lo < fuel)%nat ->
  (forall i, (lo <= i < Z.to_nat (j + 1))%nat -> same_run (b i) (b' i)) ->
  same_run (c_loop_le fuel T (Z.of_nat lo) j b) (for_range lo (Z.to_nat (j + 1)) b').
Proof.
  intros T j b b' HT RT RT1. induction fuel as [|f IH]; intros lo Rlo Hf Hb; [lia|]. simpl.
  rewrite less_same; auto. destruct (j <? Z.of_nat lo) eqn:E.
  - apply Z.ltb_lt in E. unfold for_range. replace (Z.to_nat (j + 1) - lo)%nat with 0%nat by lia. apply same_refl.
  - apply Z.ltb_ge in E. unfold for_range. replace (Z.to_nat (j + 1) - lo)%nat with (S (Z.to_nat (j + 1) - S lo)) by lia. simpl.
    rewrite from_nat. apply same_bind; [apply Hb; lia|]. intros _. specialize (RT1 ltac:(lia)).
    rewrite inc_ok; auto; try lia; [|apply rep_le with (z := j + 1); auto; lia].
    replace (Z.of_nat lo + 1) with (Z.of_nat (S lo)) by lia.
    apply IH; [apply rep_le with (z := j + 1); auto; lia|lia|]. intros; apply Hb; lia.
Qed.
Lemma same_le : forall fuel T j n (b b' : nat -> prog O unit), 1 <= iwidth T -> n = (j + 1)%nat -> representable T (Z.of_nat n) ->
  (n < fuel)%nat -> (forall i, (i < n)%nat -> same_run (b i) (b' i)) ->
  same_run (c_loop_le fuel T 0 (Z.of_nat j) b) (for_range 0 n b').
Proof.
  intros fuel T j n b b' HT -> R Hf Hb. replace (j + 1)%nat with (Z.to_nat (Z.of_nat j + 1)) in * by lia.
  apply loop_le with (lo := 0%nat); auto; try lia.
  - apply rep_le with (z := Z.of_nat (Z.to_nat (Z.of_nat j + 1))); auto; lia.
  - intros _. rewrite Z2Nat.id in R by lia. auto.
  - apply rep_le with (z := Z.of_nat (Z.to_nat (Z.of_nat j + 1))); auto; lia.
  - intros; apply Hb; lia.
Qed.
Lemma same_ptrdiff : forall fuel j (b b' : nat -> prog O unit), representable (IK true 64) j -> (0 <= j -> representable (IK true 64) (j + 1)) ->
  (Z.to_nat (j + 1) < fuel)%nat -> (forall i, (i < Z.to_nat (j + 1))%nat -> same_run (b i) (b' i)) ->
  same_run (c_for_ptrdiff fuel j b) (for_range 0 (Z.to_nat (j + 1)) b').
Proof.
  intros fuel j b b' R R1 Hf Hb. unfold c_for_ptrdiff. apply loop_le with (lo := 0%nat); auto; try (simpl; lia).
  - apply zero_rep; simpl; lia.
  - intros; apply Hb; lia.
Qed.
Lemma loop_down : forall T (b b' : nat -> prog O unit), 1 <= iwidth T ->
  forall fuel n, representable T (Z.of_nat n) -> (n < fuel)%nat ->
  (forall i, (i < n)%nat -> same_run (b i) (b' i)) ->
  same_run (c_loop_down fuel T (Z.of_nat n) b) (for_down n b').
Proof.
  intros T b b' HT. induction fuel as [|f IH]; intros n R Hf Hb; [lia|]. cbn [c_loop_down].
  rewrite less_ok; auto; try lia; try (simpl; lia); [|apply zero_rep; simpl; lia].
  destruct n as [|n]; [apply same_refl|].
  replace (0 <? Z.of_nat (S n)) with true by (symmetry; apply Z.ltb_lt; lia). cbn [for_down].
  rewrite dec_ok; auto; try lia. replace (Z.of_nat (S n) - 1) with (Z.of_nat n) by lia.
  unfold with_. rewrite from_nat. apply same_bind; [apply Hb; lia|]. intros _.
  apply IH; [apply rep_le with (z := Z.of_nat (S n)); auto; lia|lia|]. intros; apply Hb; lia.
Qed.
Lemma same_down : forall fuel T U n hz (b b' : nat -> prog O unit), hz = Some (Z.of_nat n) -> 1 <= iwidth T -> representable T (Z.of_nat n) ->
  (n < fuel)%nat -> (forall i, (i < n)%nat -> same_run (b i) (b' i)) ->
  same_run (c_for_down fuel T (U, hz) b) (for_down n b').
Proof.
  intros fuel T U n hz b b' -> HT R Hf Hb. unfold c_for_down. cbn [snd]. rewrite wrap_id; auto. apply loop_down; auto.
Qed.
Lemma mirror_down : forall n k lo (b : nat -> prog O unit), (lo + k = n)%nat ->
  same_run (for_ lo k (fun i => b (n - (i + 1))%nat)) (for_down k b).
Proof.
  intros n. induction k as [|k IH]; intros lo b H; [apply same_refl|]. simpl.
  replace (n - (lo + 1))%nat with k by lia. apply same_bind; [apply same_refl|]. intros _. apply IH. lia.
Qed.
Lemma same_mirror : forall fuel T U n lz hz (b b' : nat -> prog O unit),
  lz = Some (Z.of_nat 0) -> hz = Some (Z.of_nat n) ->
  1 <= iwidth T -> 1 <= iwidth U -> representable T (Z.of_nat n) -> representable U (Z.of_nat n) -> (n < fuel)%nat ->
  (forall i, (i < n)%nat -> same_run (b i) (b' i)) ->
  same_run (c_for fuel T lz (U, hz) (fun k => with_ (mirror_ T U n k) b)) (for_down n b').
Proof.
  intros fuel T U n lz hz b b' E1 E2 HT HU RT RU Hf Hb.
  eapply same_trans; [|apply (@mirror_down n n 0 b'); lia].
  replace (for_ 0 n (fun i => b' (n - (i + 1))%nat)) with (for_range 0 n (fun i => b' (n - (i + 1))%nat))
    by (unfold for_range; rewrite Nat.sub_0_r; reflexivity).
  eapply same_for; eauto; try lia.
  - apply zero_rep; auto.
  - intros i Hi. rewrite mirror_ok; auto; try lia. unfold with_. rewrite from_nat. apply Hb. lia.
Qed.
Lemma same_fordown : forall n (b b' : nat -> prog O unit), (forall i, (i < n)%nat -> same_run (b i) (b' i)) ->
  same_run (for_down n b) (for_down n b').
Proof.
  induction n as [|n IH]; intros b b' H; [apply same_refl|]. simpl. apply same_bind; [apply H; lia|]. intros _. apply IH.
  intros; apply H; lia.
Qed.
Lemma succ_ok : forall T j n, 1 <= iwidth T -> n = (j + 1)%nat -> representable T (Z.of_nat n) -> succ_ T j = Some (Z.of_nat n).
Proof. intros T j n HT -> R. unfold succ_. rewrite inc_ok; auto; try lia; [f_equal; lia|]. replace (Z.of_nat j + 1) with (Z.of_nat (j + 1)) by lia. auto. Qed.
Lemma conv_ok : forall T n, 1 <= iwidth T -> representable T (Z.of_nat n) -> conv_ T n = Some (Z.of_nat n).
Proof. intros. unfold conv_. rewrite wrap_id; auto. Qed.
End Loops.
Lemma k_upper_rep : forall z d i, representable (IK true 64) (k_upper z d i).
Proof. intros. unfold k_upper. rewrite wrap_same. apply wrap_rep. apply kind_width. Qed.
Lemma same_upper : forall (O : ops) fuel z d i n (b b' : nat -> prog O unit), (i < n)%nat -> representable (IK true 64) (Z.of_nat n) ->
  (n < fuel)%nat -> (forall k, same_run (b k) (b' k)) ->
  same_run (c_for_ptrdiff fuel (k_upper z d i) b) (for_range 0 (Z.to_nat (k_upper z d i + 1)) b').
Proof.
  intros O fuel z d i n b b' Hi R Hf Hb.
  assert (K : (Z.to_nat (k_upper z d i + 1) <= i + 1)%nat).
  { rewrite k_upper_ok; [destruct (is_explicit d); lia|].
    unfold representable, in_range, int_max in R. simpl in R. unfold max_of. simpl. lia. }
  apply same_ptrdiff; [apply k_upper_rep| |lia|auto]. intros H0. apply rep_le with (z := Z.of_nat n); [simpl; lia|lia|auto].
Qed.
Lemma same_succeeds : forall T A (p q : prog T A) m (Q : A -> mem T -> Prop), same_run p q -> succeeds q m Q -> succeeds p m Q.
Proof. intros T A p q m Q H (x & m' & E & HQ). exists x, m'. rewrite H; auto. Qed.
Lemma common_types_rep : forall t l u n, 1 <= iwidth t -> (forall v, In v l -> 1 <= iwidth v) -> In u (t :: l) -> 0 <= n ->
  representable u n -> representable (common_types t l) n.
Proof.
  intros t l. revert t. unfold common_types. induction l as [|v l IH]; intros t u n Ht Hl Hu Hn R; simpl.
  - destruct Hu as [->|[]]; auto.
  - assert (Hv : 1 <= iwidth v) by (apply Hl; simpl; auto).
    assert (W : 1 <= iwidth (common_type t v)) by (apply width_common_type; auto).
    destruct Hu as [->|[->|Hu]].
    + apply IH with (u := common_type u v); simpl; auto. { intros; apply Hl; simpl; auto. } apply rep_common_type_l; auto.
    + apply IH with (u := common_type t u); simpl; auto. { intros; apply Hl; simpl; auto. } apply rep_common_type_r; auto.
    + apply IH with (u := u); simpl; auto. intros; apply Hl; simpl; auto.
Qed.

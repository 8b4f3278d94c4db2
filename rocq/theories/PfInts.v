(** Integer types of every width: lemmas for C83. *)
From Coq Require Import ZArith Lia Bool List Znumtheory.
From Verif Require Import Mem Scalar View Spec SpecI SpecI2 SpecT Proxy Typed TypedProd PfTypedProd Ints.
Import ListNotations.
Local Open Scope Z_scope.

Lemma pow_pos : forall w, 0 <= w -> 0 < 2 ^ w.
Proof. intros. apply Z.pow_pos_nonneg; lia. Qed.
Lemma pow_half : forall w, 1 <= w -> 2 ^ w = 2 * 2 ^ (w - 1).
Proof. intros w H. replace w with (Z.succ (w - 1)) at 1 by lia. rewrite Z.pow_succ_r; lia. Qed.

Lemma wrap_rep : forall t z, 1 <= iwidth t -> representable t (wrap_to t z).
Proof.
  intros [s w] z H. simpl in H. unfold representable, wrap_to, in_range, int_max; simpl.
  pose proof (pow_half w H) as P. pose proof (pow_pos (w - 1) ltac:(lia)) as Q.
  destruct s.
  - pose proof (Z.mod_pos_bound (z + 2 ^ (w - 1)) (2 ^ w) ltac:(lia)). lia.
  - apply Z.mod_pos_bound. lia.
Qed.
Lemma wrap_cong : forall t z, 1 <= iwidth t -> exists k, z - wrap_to t z = k * 2 ^ iwidth t.
Proof.
  intros [s w] z H. simpl in H. unfold wrap_to; simpl.
  pose proof (pow_pos w ltac:(lia)) as Q. destruct s.
  - exists ((z + 2 ^ (w - 1)) / 2 ^ w). pose proof (Z.div_mod (z + 2 ^ (w - 1)) (2 ^ w) ltac:(lia)). lia.
  - exists (z / 2 ^ w). pose proof (Z.div_mod z (2 ^ w) ltac:(lia)). lia.
Qed.
Lemma wrap_eq : forall t a b k, 1 <= iwidth t -> a - b = k * 2 ^ iwidth t -> wrap_to t a = wrap_to t b.
Proof.
  intros [s w] a b k H E. simpl in *. unfold wrap_to; simpl. pose proof (pow_pos w ltac:(lia)) as Q.
  assert (a = b + k * 2 ^ w) as -> by lia.
  destruct s.
  - replace (b + k * 2 ^ w + 2 ^ (w - 1)) with (b + 2 ^ (w - 1) + k * 2 ^ w) by ring. rewrite Z.mod_add by lia. reflexivity.
  - apply Z.mod_add. lia.
Qed.
Lemma wrap_id : forall t z, 1 <= iwidth t -> representable t z -> wrap_to t z = z.
Proof.
  intros [s w] z H R. simpl in H. unfold representable, in_range, int_max, wrap_to in *; simpl in *.
  pose proof (pow_half w H). destruct s.
  - rewrite Z.mod_small; lia.
  - apply Z.mod_small. exact R.
Qed.
Lemma reduced_unique : forall t z r r', 1 <= iwidth t -> reduced t z r -> reduced t z r' -> r = r'.
Proof.
  intros t z r r' H [R [k E]] [R' [k' E']]. rewrite <- (wrap_id t r H R), <- (wrap_id t r' H R').
  apply wrap_eq with (k := k' - k); [exact H|]. lia.
Qed.
Lemma wrap_add : forall t a b, 1 <= iwidth t -> wrap_to t (wrap_to t a + b) = wrap_to t (a + b).
Proof.
  intros t a b H. destruct (wrap_cong t a H) as [k E]. symmetry. apply wrap_eq with (k := k); auto. lia.
Qed.
Lemma wrap_reduced : forall t z, 1 <= iwidth t -> reduced t z (wrap_to t z).
Proof. intros. split; [apply wrap_rep|apply wrap_cong]; auto. Qed.

(** Arithmetic takes place in [arith_type]. *)
Lemma arith_wide : forall t, 32 <= iwidth (arith_type t).
Proof. intros t. unfold arith_type. destruct (Z.ltb_spec (iwidth t) 32); simpl; lia. Qed.
Lemma common_arith : forall t, common t t = arith_type t.
Proof.
  intros t. unfold common, promote, arith_type. destruct (Z.ltb_spec (iwidth t) 32); [reflexivity|].
  rewrite Bool.eqb_reflx, Z.ltb_irrefl. reflexivity.
Qed.
Lemma common_arith_l : forall t, common t (arith_type t) = arith_type t.
Proof.
  intros t. unfold common, promote, arith_type. destruct (Z.ltb_spec (iwidth t) 32); [reflexivity|].
  rewrite (proj2 (Z.ltb_ge _ _)), Bool.eqb_reflx, Z.ltb_irrefl by lia. reflexivity.
Qed.
Lemma common_arith_r : forall t, common (arith_type t) t = arith_type t.
Proof.
  intros t. unfold common, promote, arith_type. destruct (Z.ltb_spec (iwidth t) 32); [reflexivity|].
  rewrite (proj2 (Z.ltb_ge _ _)), Bool.eqb_reflx, Z.ltb_irrefl by lia. reflexivity.
Qed.
Lemma common_arith_2 : forall t, common (arith_type t) (arith_type t) = arith_type t.
Proof.
  intros t. unfold common, promote. rewrite (proj2 (Z.ltb_ge _ _) (arith_wide t)), Bool.eqb_reflx, Z.ltb_irrefl. reflexivity.
Qed.
Lemma kind_refl : forall t, ikind_eqb t t = true.
Proof. intros t. unfold ikind_eqb. rewrite Bool.eqb_reflx, Z.eqb_refl. reflexivity. Qed.
Lemma kind_eq : forall s t, ikind_eqb s t = true -> s = t.
Proof.
  intros [a b] [c d] H. unfold ikind_eqb in H; simpl in H. apply andb_prop in H. destruct H as [H K].
  apply Bool.eqb_prop in H. apply Z.eqb_eq in K. congruence.
Qed.
Lemma rep_arith : forall t z, 1 <= iwidth t -> representable t z -> representable (arith_type t) z.
Proof.
  intros [s w] z H R. unfold arith_type; simpl in *. destruct (Z.ltb_spec w 32) as [N|N]; [|exact R].
  unfold representable, in_range, int_max in *; simpl in *. change (Z.pow_pos 2 31) with (2 ^ 31).
  pose proof (Z.pow_le_mono_r 2 w 31 ltac:(lia) ltac:(lia)). pose proof (pow_half w H). pose proof (pow_pos (w - 1) ltac:(lia)).
  destruct s; lia.
Qed.
Lemma rep_dec : forall t z, representable t z \/ ~ representable t z.
Proof.
  intros [s w] z. unfold representable, in_range, int_max; simpl.
  destruct s; [destruct (Z.le_gt_cases (- 2 ^ (w - 1)) z); destruct (Z.le_gt_cases z (2 ^ (w - 1) - 1))
              |destruct (Z.le_gt_cases 0 z); destruct (Z.lt_ge_cases z (2 ^ w))]; (left; lia) || (right; lia).
Qed.
Lemma defined_dec : forall t z, defined_result t z \/ ~ defined_result t z.
Proof.
  intros t z. unfold defined_result. destruct (isigned (arith_type t)); [|auto].
  destruct (rep_dec (arith_type t) z); [auto|]. right. intros [E|E]; [discriminate|auto].
Qed.
(** The result of an operation in the arithmetic type. *)
Lemma result_defined : forall t z, defined_result t z -> result_in (arith_type t) z = Some (wrap_to (arith_type t) z).
Proof.
  intros t z H. assert (W := arith_wide t). unfold result_in. destruct (isigned (arith_type t)) eqn:E.
  - destruct H as [H|H]; [congruence|]. rewrite (wrap_id (arith_type t) z ltac:(lia) H).
    unfold representable in H. rewrite E in H. unfold in_range, int_max in H.
    rewrite (proj2 (Z.leb_le _ _)), (proj2 (Z.ltb_lt _ _)) by lia. reflexivity.
  - unfold wrap_to. rewrite E. reflexivity.
Qed.
Lemma result_undefined : forall t z, ~ defined_result t z -> result_in (arith_type t) z = None.
Proof.
  intros t z H. unfold result_in, defined_result in *. destruct (isigned (arith_type t)) eqn:E; [|exfalso; auto].
  destruct (Z.leb_spec (- 2 ^ (iwidth (arith_type t) - 1)) z) as [A|A]; [|reflexivity].
  destruct (Z.ltb_spec z (2 ^ (iwidth (arith_type t) - 1))) as [B|B]; [|reflexivity].
  exfalso. apply H. right. unfold representable. rewrite E. unfold in_range, int_max. lia.
Qed.
(** Reduction through the arithmetic type. *)
Lemma wrap_wrap : forall t z, 1 <= iwidth t -> wrap_to t (wrap_to (arith_type t) z) = wrap_to t z.
Proof.
  intros t z H. assert (W := arith_wide t). destruct (wrap_cong (arith_type t) z ltac:(lia)) as [k E].
  assert (L : iwidth t <= iwidth (arith_type t)) by (unfold arith_type; destruct (Z.ltb_spec (iwidth t) 32); simpl; lia).
  symmetry. apply wrap_eq with (k := k * 2 ^ (iwidth (arith_type t) - iwidth t)); [exact H|].
  rewrite E, <- Z.mul_assoc, <- Z.pow_add_r by lia. do 2 f_equal. lia.
Qed.
Lemma cast_arith : forall s t z, 1 <= iwidth t -> s = t \/ s = arith_type t ->
  icast s (IV (arith_type t) (Some (wrap_to (arith_type t) z))) = int_value s (wrap_to s z).
Proof.
  intros s t z H [->| ->]; cbn [icast].
  - destruct (ikind_eqb (arith_type t) t) eqn:E.
    + apply kind_eq in E. rewrite E. reflexivity.
    + cbn [option_map]. rewrite wrap_wrap by exact H. reflexivity.
  - rewrite kind_refl. reflexivity.
Qed.
Lemma cast_none : forall s t, icast s (IV t None) = undefined s.
Proof. intros s t. cbn [icast]. destruct (ikind_eqb t s) eqn:E; [|reflexivity]. apply kind_eq in E. subst. reflexivity. Qed.
Lemma is_result_intro : forall s t z, 1 <= iwidth t -> s = t \/ s = arith_type t ->
  is_result s t z (icast s (IV (arith_type t) (result_in (arith_type t) z))).
Proof.
  intros s t z H S. assert (1 <= iwidth s) by (assert (W := arith_wide t); destruct S as [->| ->]; lia). split; intros D.
  - rewrite (result_defined t z D), (cast_arith s t z H S). exists (wrap_to s z). split; [apply wrap_reduced; auto|reflexivity].
  - rewrite (result_undefined t z D). apply cast_none.
Qed.
Lemma arith_id : forall t z, 1 <= iwidth t -> representable t z -> wrap_to (arith_type t) z = z.
Proof. intros t z H R. assert (W := arith_wide t). apply wrap_id; [lia|apply rep_arith; auto]. Qed.
Lemma ibin_arith : forall p t x y, 1 <= iwidth t -> representable t x -> representable t y -> p <> Divide ->
  ibin p (int_value t x) (int_value t y) =
  IV (arith_type t) (result_in (arith_type t) (match p with Plus => x + y | Minus => x - y | _ => x * y end)).
Proof.
  intros p t x y H Hx Hy P. unfold int_value; cbn [ibin]. rewrite common_arith, !arith_id by auto.
  destruct p; try reflexivity. congruence.
Qed.
Lemma add_result : forall t x y, 1 <= iwidth t -> representable t x -> representable t y ->
  is_result t t (x + y) (icast t (ibin Plus (int_value t x) (int_value t y))).
Proof. intros. rewrite ibin_arith by (auto; discriminate). apply is_result_intro; auto. Qed.
Lemma mul_result : forall t x y, 1 <= iwidth t -> representable t x -> representable t y ->
  is_result t t (x * y) (icast t (ibin Times (int_value t x) (int_value t y))).
Proof. intros. rewrite ibin_arith by (auto; discriminate). apply is_result_intro; auto. Qed.

Lemma common_acc : forall s t, s = t \/ s = arith_type t -> common s (arith_type t) = arith_type t.
Proof. intros s t [->| ->]; [apply common_arith_l|apply common_arith_2]. Qed.
Lemma acc_id : forall s t z, 1 <= iwidth t -> s = t \/ s = arith_type t -> representable s z -> wrap_to (arith_type t) z = z.
Proof. intros s t z H [->| ->] R; [apply arith_id; auto|]. assert (W := arith_wide t). apply wrap_id; [lia|auto]. Qed.
(** One accumulation: every case. *)
Lemma acc_undefined : forall s t a x y, 1 <= iwidth t -> s = t \/ s = arith_type t ->
  representable s a -> representable t x -> representable t y ->
  ~ (defined_result t (x * y) /\ defined_result t (a + x * y)) ->
  icast s (ibin Plus (int_value s a) (ibin Times (int_value t x) (int_value t y))) = undefined s.
Proof.
  intros s t a x y H S Ha Hx Hy D. rewrite ibin_arith by (auto; discriminate).
  destruct (defined_dec t (x * y)) as [D1|D1].
  - rewrite (result_defined t _ D1). unfold int_value; cbn [ibin]. rewrite (common_acc s t S).
    assert (W := arith_wide t).
    assert (D2 : ~ defined_result t (a + x * y)) by tauto.
    assert (D3 : representable (arith_type t) (x * y)) by (destruct D1 as [D1|D1]; [exfalso; apply D2; left; auto|auto]).
    rewrite (acc_id s t a H S Ha), !(wrap_id (arith_type t) (x * y) ltac:(lia) D3), (result_undefined t _ D2). apply cast_none.
  - rewrite (result_undefined t _ D1). unfold int_value; cbn [ibin]. apply cast_none.
Qed.
Lemma acc_defined : forall s t a x y, 1 <= iwidth t -> s = t \/ s = arith_type t ->
  representable s a -> representable t x -> representable t y ->
  defined_result t (x * y) -> defined_result t (a + x * y) ->
  icast s (ibin Plus (int_value s a) (ibin Times (int_value t x) (int_value t y))) = int_value s (wrap_to s (a + x * y)).
Proof.
  intros s t a x y H S Ha Hx Hy D1 D2. assert (W := arith_wide t). rewrite ibin_arith by (auto; discriminate).
  rewrite (result_defined t _ D1). unfold int_value at 1; cbn [ibin]. rewrite (common_acc s t S), (acc_id s t a H S Ha).
  rewrite (wrap_id (arith_type t) (wrap_to (arith_type t) (x * y)) ltac:(lia) (wrap_rep (arith_type t) (x * y) ltac:(lia))).
  assert (E : exists k, a + x * y - (a + wrap_to (arith_type t) (x * y)) = k * 2 ^ iwidth (arith_type t)).
  { destruct (wrap_cong (arith_type t) (x * y) ltac:(lia)) as [k E]. exists k. lia. }
  destruct E as [k E].
  assert (D3 : defined_result t (a + wrap_to (arith_type t) (x * y))).
  { destruct D1 as [D1|D1]; [left; exact D1|]. rewrite (wrap_id (arith_type t) (x * y)); auto; lia. }
  rewrite (result_defined t _ D3), <- (wrap_eq (arith_type t) _ _ k ltac:(lia) E). apply cast_arith; auto.
Qed.

Lemma sums_snoc : forall (L : cpp) t init n f, typed_sums L t init (S n) f = cast L t (cbin L Plus (typed_sums L t init n f) (f n)).
Proof. intros. unfold typed_sums. rewrite seq_S, fold_left_app. reflexivity. Qed.
Lemma sums_cases : forall s t a n x y, 1 <= iwidth t -> s = t \/ s = arith_type t -> representable s a ->
  (forall k, (k < n)%nat -> representable t (x k) /\ representable t (y k)) ->
  let v := typed_sums ints s (int_value s a) n (fun k => ibin Times (int_value t (x k)) (int_value t (y k))) in
  (v = int_value s (wrap_to s (a + zsum n (fun k => x k * y k))) /\ defined_sum s t a n x y) \/
  (v = undefined s /\ ~ defined_sum s t a n x y).
Proof.
  intros s t a n x y Ht S Ha. assert (Hs : 1 <= iwidth s) by (assert (W := arith_wide t); destruct S as [->| ->]; lia).
  induction n as [|n IH]; intros H; cbv zeta.
  - left. unfold typed_sums; simpl. rewrite Z.add_0_r, wrap_id by auto. split; [reflexivity|]. intros k Hk. lia.
  - rewrite sums_snoc. change (cast ints) with icast. change (cbin ints) with ibin.
    destruct (H n ltac:(lia)) as [Hx Hy]. cbv zeta in IH.
    destruct IH as [[-> D]|[-> D]]; [intros; apply H; lia| |].
    + set (acc := wrap_to s (a + zsum n (fun k => x k * y k))).
      assert (Ra : reduced s (a + zsum n (fun k => x k * y k)) acc) by (apply wrap_reduced; auto).
      assert (Q : (defined_result t (x n * y n) /\ defined_result t (acc + x n * y n)) \/
                ~ (defined_result t (x n * y n) /\ defined_result t (acc + x n * y n))).
      { destruct (defined_dec t (x n * y n)); destruct (defined_dec t (acc + x n * y n)); tauto. }
      destruct Q as [[Q1 Q2]|Q].
      * left. rewrite (acc_defined s t acc (x n) (y n)) by (auto; apply Ra). split.
        -- unfold acc. rewrite wrap_add by auto. simpl zsum. do 2 f_equal. ring.
        -- intros k Hk. destruct (Nat.eq_dec k n) as [->|N]; [|apply D; lia]. split; [exact Q1|].
           intros r Hr. rewrite (reduced_unique s _ r acc Hs Hr Ra). exact Q2.
      * right. rewrite (acc_undefined s t acc (x n) (y n)) by (auto; apply Ra). split; [reflexivity|].
        intros K. apply Q. destruct (K n ltac:(lia)) as [K1 K2]. split; [exact K1|apply K2; exact Ra].
    + right. split.
      * rewrite ibin_arith by (auto; discriminate). unfold undefined; cbn [ibin]. apply cast_none.
      * intros K. apply D. intros k Hk. apply K. lia.
Qed.
Lemma sums_exact : forall s t a n x y, 1 <= iwidth t -> s = t \/ s = arith_type t -> representable s a ->
  (forall k, (k < n)%nat -> representable t (x k) /\ representable t (y k)) ->
  is_sum s t a n x y (typed_sums ints s (int_value s a) n (fun k => ibin Times (int_value t (x k)) (int_value t (y k)))).
Proof.
  intros s t a n x y Ht S Ha H. assert (Hs : 1 <= iwidth s) by (assert (W := arith_wide t); destruct S as [->| ->]; lia).
  destruct (sums_cases s t a n x y Ht S Ha H) as [[E D]|[E D]]; rewrite E; split; intros K; try contradiction; auto.
  eexists. split; [apply wrap_reduced; auto|reflexivity].
Qed.

(** Types that never overflow. *)
Lemma never_defined : forall t a x y, never_overflows t -> representable t a -> representable t x -> representable t y ->
  defined_result t (x * y) /\ defined_result t (x + y) /\ defined_result t (a + x * y).
Proof.
  intros [s w] a x y N Ha Hx Hy. unfold never_overflows in N; simpl in N. unfold defined_result, arith_type; simpl.
  destruct (Z.ltb_spec w 32) as [L|L].
  2: { simpl. repeat split; left; destruct N as [N|[[_ N]|[N _]]]; (lia || exact N). }
  assert (B : forall z, representable (IK s w) z -> - 32768 <= z <= 32768).
  { intros z Hz. unfold representable, in_range, int_max in Hz; simpl in Hz.
    destruct N as [N|[[-> ->]|[_ N]]]; [| |lia].
    - destruct s.
      + pose proof (Z.pow_le_mono_r 2 (w - 1) 15 ltac:(lia) ltac:(lia)) as P. change (2 ^ 15) with 32768 in P. lia.
      + pose proof (Z.pow_le_mono_r 2 w 15 ltac:(lia) ltac:(lia)) as P. change (2 ^ 15) with 32768 in P. lia.
    - change (2 ^ (16 - 1)) with 32768 in Hz. lia. }
  apply B in Ha. apply B in Hx. apply B in Hy.
  unfold representable, in_range, int_max; simpl. change (Z.pow_pos 2 31) with 2147483648.
  repeat split; right; nia.
Qed.
Lemma never_width : forall t, never_overflows t -> 1 <= iwidth t.
Proof. intros t [N|[[_ N]|[_ N]]]; lia. Qed.
Lemma never_sum : forall t a n x y, never_overflows t -> representable t a ->
  (forall k, (k < n)%nat -> representable t (x k) /\ representable t (y k)) -> defined_sum t t a n x y.
Proof.
  intros t a n x y N Ha H k Hk. destruct (H k Hk) as [Hx Hy].
  split; [eapply never_defined; eauto|]. intros r [Hr _]. eapply never_defined; eauto.
Qed.
Lemma zero_rep : forall t, 1 <= iwidth t -> representable t 0.
Proof.
  intros [s w] H. simpl in H. unfold representable, in_range, int_max; simpl.
  pose proof (pow_pos w ltac:(lia)). pose proof (pow_pos (w - 1) ltac:(lia)). destruct s; lia.
Qed.
Lemma cast_same : forall t v, icast t (IV t v) = IV t v.
Proof. intros t v. cbn [icast]. rewrite kind_refl. reflexivity. Qed.

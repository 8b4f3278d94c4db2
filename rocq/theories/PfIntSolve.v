(** Triangular systems of integers with an integer solution are solved exactly. *)
From Coq Require Import List Arith ZArith Reals Lia Bool.
From Flocq Require Import Core.Core IEEE754.BinarySingleNaN.
From Verif Require Import Mem Scalar View Spec SpecI SpecSub SpecExact SpecFma SpecFused Ieee Fma Idx Wp Blas2 Blas3 PfSub PfExactI PfFusedI.
Import ListNotations.
Set Implicit Arguments.

Lemma lsum_nonneg : forall l t, (0 <= lsum l (fun k => Z.abs (t k)))%Z.
Proof. induction l; intros; unfold lsum in *; cbn [fold_right]; [lia|]. specialize (IHl t). lia. Qed.
Lemma lsum_in : forall l t k, In k l -> (Z.abs (t k) <= lsum l (fun k => Z.abs (t k)))%Z.
Proof.
  induction l as [|a l IH]; intros t k []; pose proof (lsum_nonneg l t); unfold lsum in *; cbn [fold_right]; subst; [lia|].
  pose proof (IH t k H). lia.
Qed.

Section Solve.
Variables (O : ops) (M : Z) (iv : O -> Z -> Prop).
Hypothesis Hmul : forall x y z w, iv x z -> iv y w -> (Z.abs (z * w) <= M)%Z -> iv (mul x y) (z * w).
Hypothesis Hsub : forall x y z w, iv x z -> iv y w -> (Z.abs (z - w) <= M)%Z -> iv (sub x y) (z - w).
Hypothesis Hdiv : forall x y z w, iv x (w * z) -> iv y w -> w <> 0%Z -> (Z.abs z <= M)%Z -> iv (div x y) z.

Lemma diffs_iv : forall l (s : O) z (f : nat -> O) t, iv s z -> (forall k, In k l -> iv (f k) (t k)) ->
  (Z.abs z + lsum l (fun k => Z.abs (t k)) <= M)%Z -> iv (fold_left (fun s k => sub s (f k)) l s) (z - lsum l t).
Proof.
  induction l as [|j l IH]; intros s z f t Hs Hf Hb; [cbn [lsum fold_right fold_left]; rewrite Z.sub_0_r; auto|]. cbn [fold_left].
  pose proof (lsum_nonneg l t) as N. unfold lsum in Hb; cbn [fold_right] in Hb; fold (lsum l (fun k => Z.abs (t k))) in Hb.
  replace (z - lsum (j :: l) t)%Z with ((z - t j) - lsum l t)%Z by (unfold lsum; simpl; lia).
  apply IH; [|intros; apply Hf; simpl; auto|lia]. apply Hsub; auto; [apply Hf; simpl; auto|lia].
Qed.
Lemma sub_range : forall t n i, i < n -> NoDup (i :: seq (sub_lo t i) (sub_len t n i)) /\
  (forall k, In k (seq (sub_lo t i) (sub_len t n i)) <-> k < n /\ in_tri t i k /\ i <> k).
Proof.
  intros t n i Hi. split.
  - constructor; [rewrite in_seq; destruct t; simpl; lia|apply seq_NoDup].
  - intros k. rewrite in_seq. destruct t; simpl; lia.
Qed.
(** position of unknown i in the order of substitution *)
Definition rank t n i : nat := match t with Lower => i | Upper => n - i end.
Lemma subst_iv : forall t d n (g : nat -> nat -> O) (dg b f : nat -> O) (p : nat -> nat -> Z) (q s : nat -> Z), triangular_z t d p ->
  (d = Explicit -> forall i, i < n -> p i i <> 0%Z) ->
  (forall i, i < n -> iv (b i) (q i)) -> (d = Explicit -> forall i, i < n -> iv (dg i) (p i i)) ->
  (forall i k, i < n -> k < n -> in_tri t i k -> i <> k -> iv (f k) (s k) -> (Z.abs (p i k * s k) <= M)%Z -> iv (g i k) (p i k * s k)) ->
  (forall i, i < n -> zsum n (fun k => p i k * s k)%Z = q i /\ (Z.abs (q i) + zsum n (fun k => Z.abs (p i k * s k)) <= M)%Z) ->
  (forall i, i < n -> f i = let v := diffs (b i) (sub_lo t i) (sub_len t n i) (g i) in match d with Explicit => div v (dg i) | ImplicitUnit => v end) ->
  forall i, i < n -> iv (f i) (s i).
Proof.
  intros t d n g dg b f p q s [TZ TU] Hn Hb Hd Hg Hs Hf.
  enough (G : forall m i, i < n -> rank t n i < m -> iv (f i) (s i)) by (intros i Hi; eapply G; [auto|constructor]).
  induction m as [|m IH]; intros i Hi Hr; [lia|]. rewrite Hf by auto. cbv zeta. destruct (sub_range t Hi) as [R1 R2]. destruct (Hs i Hi) as [S1 S2].
  set (l := seq (sub_lo t i) (sub_len t n i)) in *.
  assert (C : forall h : nat -> Z, (forall k, ~ in_tri t i k -> h k = 0%Z) -> (h i + lsum l h)%Z = zsum n h).
  { intros h Hh. change (h i + lsum l h)%Z with (lsum (i :: l) h). apply lsum_cover; auto.
    - intros k [<-|K]; auto. apply R2 in K. tauto.
    - intros k Hk K. apply Hh. intros T. apply K. simpl. destruct (Nat.eq_dec i k); auto. right. apply R2. auto. }
  pose proof (C (fun k => p i k * s k)%Z) as C1. pose proof (C (fun k => Z.abs (p i k * s k))) as C2. cbv beta in C1, C2.
  rewrite S1 in C1. rewrite <- C2 in S2 by (intros k K; rewrite TZ by auto; reflexivity). specialize (C1 ltac:(intros k K; rewrite TZ by auto; reflexivity)).
  pose proof (lsum_nonneg l (fun k => p i k * s k)%Z) as N.
  assert (D : iv (diffs (b i) (sub_lo t i) (sub_len t n i) (g i)) (p i i * s i)).
  { replace (p i i * s i)%Z with (q i - lsum l (fun k => p i k * s k))%Z by lia. apply diffs_iv; auto; [|lia].
    intros k Hk. pose proof (lsum_in l (fun k => p i k * s k)%Z k Hk) as K. cbv beta in K. apply R2 in Hk. destruct Hk as (K1 & K2 & K3).
    apply Hg; auto; [|lia]. apply IH; auto. destruct t; simpl in *; lia. }
  destruct d.
  - apply Hdiv with (p i i); auto. specialize (Hn eq_refl i Hi). rewrite Z.abs_mul in S2. nia.
  - rewrite TU, Z.mul_1_l in D by auto. exact D.
Qed.

Lemma trsv_iv : forall ty (m : mem O) A t d B X a b p q s,
  fits ty (ext0 A) -> (ext0 A = 0 -> t = Upper -> ty <> U32) ->
  ext0 A = ext1 A -> vext B = ext0 A -> vext X = ext0 A ->
  mat_holds_on m A (stored t d) a -> vec_holds m B b -> vwritable X -> allocated m (vcells X) ->
  disjoint (mcells_on A (stored t d)) (vcells X) -> disjoint_or_aligned_v B X ->
  (forall i j, i < ext0 A -> j < ext1 A -> stored t d i j -> iv (a i j) (p i j)) -> (forall i, i < vext B -> iv (b i) (q i)) ->
  triangular_z t d p -> (d = Explicit -> forall i, i < ext0 A -> p i i <> 0%Z) ->
  (forall i, i < ext0 A -> zsum (ext0 A) (fun k => p i k * s k)%Z = q i /\ (Z.abs (q i) + zsum (ext0 A) (fun k => Z.abs (p i k * s k)) <= M)%Z) ->
  succeeds (triangular_matrix_vector_solve ty A t d B X) m (fun _ m' => exists r, vec_holds m' X r /\ forall i, i < vext X -> iv (r i) (s i)).
Proof.
  intros ty m A t d B X a b p q s; intros. eapply wp_conseq; [apply trsv_subst with (a := a) (b := b); eauto|]. intros [] m' [(f & K1 & K2) _].
  exists f. split; [exact K1|]. intros i Hi.
  apply subst_iv with (t := t) (d := d) (n := ext0 A) (g := fun i k => mul (a i k) (f k)) (dg := fun i => a i i) (b := b) (p := p) (q := q); auto; try lia.
  - intros; auto. apply H11. lia.
  - intros -> k Hk. apply H10; try lia. split; [destruct t; simpl; lia|discriminate].
  - intros. apply Hmul; auto. apply H10; auto; try lia. split; auto.
Qed.
Lemma trsm_left_iv : forall ty (m : mem O) A t d B X a b p (q s : nat -> nat -> Z),
  fits ty (ext0 A) -> (ext0 A = 0 -> t = Upper -> ty <> U32) ->
  ext0 A = ext1 A -> ext0 B = ext0 A -> ext0 X = ext0 A -> ext1 X = ext1 B ->
  mat_holds_on m A (stored t d) a -> mat_holds m B b -> mwritable X -> allocated m (mcells X) ->
  disjoint (mcells_on A (stored t d)) (mcells X) -> disjoint_or_aligned_m B X ->
  (forall i j, i < ext0 A -> j < ext1 A -> stored t d i j -> iv (a i j) (p i j)) -> (forall i j, i < ext0 B -> j < ext1 B -> iv (b i j) (q i j)) ->
  triangular_z t d p -> (d = Explicit -> forall i, i < ext0 A -> p i i <> 0%Z) ->
  succeeds (triangular_matrix_matrix_left_solve ty A t d B X) m (fun _ m' => exists r, mat_holds m' X r /\ forall j, j < ext1 X ->
    (forall i, i < ext0 A -> zsum (ext0 A) (fun k => p i k * s k j)%Z = q i j /\ (Z.abs (q i j) + zsum (ext0 A) (fun k => Z.abs (p i k * s k j)) <= M)%Z) ->
    forall i, i < ext0 X -> iv (r i j) (s i j)).
Proof.
  intros ty m A t d B X a b p q s; intros. eapply wp_conseq; [apply trsm_left_subst with (a := a) (b := b); eauto|]. intros [] m' [(f & K1 & K2) _].
  exists f. split; [exact K1|]. intros j Hj HS i Hi.
  apply subst_iv with (t := t) (d := d) (n := ext0 A) (g := fun i k => mul (a i k) (f k j)) (dg := fun i => a i i) (b := fun k => b k j) (f := fun k => f k j)
    (p := p) (q := fun k => q k j) (s := fun k => s k j); auto; try lia.
  - intros; auto. apply H12; lia.
  - intros -> k Hk. apply H11; try lia. split; [destruct t; simpl; lia|discriminate].
  - intros. apply Hmul; auto. apply H11; auto; try lia. split; auto.
  - intros k Hk. apply K2; lia.
Qed.
Lemma trsm_right_iv : forall ty (m : mem O) A t d B X a b p (q s : nat -> nat -> Z),
  (t = Lower -> fits (make_signed ty) (ext0 A)) ->
  ext0 A = ext1 A -> ext1 B = ext0 A -> ext1 X = ext0 A -> ext0 X = ext0 B ->
  mat_holds_on m A (stored t d) a -> mat_holds m B b -> mwritable X -> allocated m (mcells X) ->
  disjoint (mcells_on A (stored t d)) (mcells X) -> disjoint_or_aligned_m B X ->
  (forall i j, i < ext0 A -> j < ext1 A -> stored t d i j -> iv (a i j) (p i j)) -> (forall i j, i < ext0 B -> j < ext1 B -> iv (b i j) (q i j)) ->
  triangular_z t d p -> (d = Explicit -> forall i, i < ext0 A -> p i i <> 0%Z) ->
  succeeds (triangular_matrix_matrix_right_solve ty A t d B X) m (fun _ m' => exists r, mat_holds m' X r /\ forall i, i < ext0 X ->
    (forall j, j < ext0 A -> zsum (ext0 A) (fun k => s i k * p k j)%Z = q i j /\ (Z.abs (q i j) + zsum (ext0 A) (fun k => Z.abs (s i k * p k j)) <= M)%Z) ->
    forall j, j < ext1 X -> iv (r i j) (s i j)).
Proof.
  intros ty m A t d B X a b p q s; intros. eapply wp_conseq; [apply trsm_right_subst with (a := a) (b := b); eauto|]. intros [] m' [(f & K1 & K2) _].
  exists f. split; [exact K1|]. intros i Hi HS j Hj.
  assert (ZE : forall n (h h' : nat -> Z), (forall k, h k = h' k) -> zsum n h = zsum n h') by (intros n h h' E; rewrite <- !lsum_seq; unfold lsum; induction (seq 0 n); simpl; [|rewrite E]; congruence).
  apply subst_iv with (t := match t with Lower => Upper | Upper => Lower end) (d := d) (n := ext0 A) (g := fun j k => mul (f i k) (a k j)) (dg := fun j => a j j) (b := fun k => b i k) (f := fun k => f i k)
    (p := fun j k => p k j) (q := fun k => q i k) (s := fun k => s i k); auto; try lia.
  - destruct H12 as [TZ TU]. split; auto. intros k l K. apply TZ. intros T. apply K. destruct t; simpl in *; lia.
  - intros; auto. apply H11; lia.
  - intros -> k Hk. apply H10; try lia. split; [destruct t; simpl; lia|discriminate].
  - intros. rewrite Z.mul_comm. apply Hmul; auto; [|rewrite Z.mul_comm; auto]. apply H10; auto; try lia. split; [destruct t; simpl in *; lia|auto].
  - intros k Hk. destruct (HS k Hk) as [E1 E2]. split; [etransitivity; [|exact E1]|etransitivity; [|exact E2]; apply Z.eq_le_incl; f_equal]; apply ZE; intros; rewrite Z.mul_comm; auto.
  - intros k Hk. rewrite K2 by lia. unfold subst_value_r. destruct t; reflexivity.
Qed.
End Solve.

(** * The two arithmetics *)
Section Inst.
Variables prec emax : Z.
Context (Hp : FLX.Prec_gt_0 prec) (He : Prec_lt_emax prec emax).
Notation num := (binary_float prec emax).
Notation rnd := (Generic_fmt.round radix2 (SpecFloat.fexp prec emax) (round_mode mode_NE)).

Lemma int_opp : forall (x : num) z, int_valued x z -> int_valued (Bopp x) (- z).
Proof. intros x z [F E]. split; [rewrite is_finite_Bopp; auto|]. rewrite B2R_Bopp, E, opp_IZR. reflexivity. Qed.
Lemma int_sub : forall (x y : num) z w, int_valued x z -> int_valued y w -> (Z.abs (z - w) <= 2 ^ prec)%Z -> int_valued (Bminus mode_NE x y) (z - w).
Proof.
  intros x y z w [Fx Ex] [Fy Ey] Hb. destruct (@int_rnd prec emax Hp He _ Hb) as [R1 R2].
  pose proof (Bminus_correct prec emax Hp He mode_NE x y Fx Fy) as K. rewrite Ex, Ey, <- minus_IZR in K.
  match type of K with context [Rlt_bool (Rabs ?r)] => change r with (rnd (IZR (z - w))) in K end. rewrite R1, Rlt_bool_true in K by auto. split; tauto.
Qed.
Lemma int_div : forall (x y : num) z w, int_valued x (w * z) -> int_valued y w -> w <> 0%Z -> (Z.abs z <= 2 ^ prec)%Z -> int_valued (Bdiv mode_NE x y) z.
Proof.
  intros x y z w [Fx Ex] [Fy Ey] Hw Hb. destruct (@int_rnd prec emax Hp He _ Hb) as [R1 R2].
  assert (NZ : IZR w <> 0%R) by (apply not_0_IZR; auto).
  pose proof (Bdiv_correct prec emax Hp He mode_NE x y ltac:(rewrite Ey; exact NZ)) as K. rewrite Ex, Ey in K.
  replace (IZR (w * z) / IZR w)%R with (IZR z) in K by (rewrite mult_IZR; field; auto).
  match type of K with context [Rlt_bool (Rabs ?r)] => change r with (rnd (IZR z)) in K end. rewrite R1, Rlt_bool_true in K by auto.
  split; [destruct K as (_ & K & _); rewrite K; auto|tauto].
Qed.
Notation O := (fma_ops prec emax Hp He).
Lemma surely_sub : forall (x y : O) z w, surely (x : poss prec emax) z -> surely (y : poss prec emax) w -> (Z.abs (z - w) <= 2 ^ prec)%Z ->
  surely (sub x y : poss prec emax) (z - w).
Proof.
  intros x y z w (E1 & V1 & P1) (E2 & V2 & P2) Hb. destruct E1 as [a E1], E2 as [b E2]. simpl. unfold c_sub. split; [|split]; simpl.
  - exists (Bminus mode_NE a b). left. exists a, b; auto.
  - intros v [(c & d & H1 & H2 & ->)|[(c & c' & d & H1 & H2 & ->)|(c & d & d' & H1 & H2 & ->)]].
    + apply int_sub; auto.
    + destruct (P1 _ _ H1) as (u1 & u2 & I1 & I2 & <-). unfold Z.sub in *. apply int_fma; auto. apply int_opp; auto.
    + destruct (P2 _ _ H2) as (u1 & u2 & I1 & I2 & <-). replace (z - u1 * u2)%Z with ((- u1) * u2 + z)%Z in * by lia. apply int_fma; auto. apply int_opp; auto.
  - intros ? ? [].
Qed.
Lemma surely_div : forall (x y : O) z w, surely (x : poss prec emax) (w * z) -> surely (y : poss prec emax) w -> w <> 0%Z -> (Z.abs z <= 2 ^ prec)%Z ->
  surely (div x y : poss prec emax) z.
Proof.
  intros x y z w (E1 & V1 & P1) (E2 & V2 & P2) Hw Hb. destruct E1 as [a E1], E2 as [b E2]. simpl. unfold c_div. split; [|split]; simpl.
  - exists (Bdiv mode_NE a b), a, b; auto.
  - intros v (c & d & H1 & H2 & ->). eapply int_div; eauto.
  - intros ? ? [].
Qed.
End Inst.

(** Lemmas for C86: parallel reductions and the set-up of rotations. *)
From Coq Require Import List Arith NArith ZArith Bool Lia Permutation.
From Verif Require Import Mem Scalar View Blas1 Norm Givens Par KK Red KKNorm SpecRel SpecRel2 PfRel.
Import ListNotations.
Set Implicit Arguments.

Section RedRel.
Context {O1 O2 : ops} (R : O1 -> O2 -> Prop).
Context {A1 A2 : Type} (P : A1 -> A2 -> Prop).
Fixpoint red_like {X1 X2} (Q : X1 -> X2 -> Prop) (p1 : red O1 A1 X1) (p2 : red O2 A2 X2) : Prop :=
  match p1, p2 with
  | RDone x1, RDone x2 => Q x1 x2
  | RThrow, RThrow => True
  | RIllFormed, RIllFormed => True
  | RHost q1 k1, RHost q2 k2 => like R P q1 q2 /\ forall a1 a2, P a1 a2 -> red_like Q (k1 a1) (k2 a2)
  | RReduce n1 b1 j1 e1 k1, RReduce n2 b2 j2 e2 k2 => n1 = n2 /\
      (forall i a1 a2, P a1 a2 -> like R P (b1 i a1) (b2 i a2)) /\
      (forall a1 a2 c1 c2, P a1 a2 -> P c1 c2 -> P (j1 a1 c1) (j2 a2 c2)) /\ P e1 e2 /\
      forall a1 a2, P a1 a2 -> red_like Q (k1 a1) (k2 a2)
  | _, _ => False
  end.
Lemma partial_like : forall m1 m2 b1 b2 j1 j2 e1 e2 l x1, mem_related R m1 m2 ->
  (forall i a1 a2, P a1 a2 -> like R P (b1 i a1) (b2 i a2)) ->
  (forall a1 a2 c1 c2, P a1 a2 -> P c1 c2 -> P (j1 a1 c1) (j2 a2 c2)) -> P e1 e2 ->
  partial m1 b1 j1 e1 l x1 -> exists x2, partial m2 b2 j2 e2 l x2 /\ P x1 x2.
Proof.
  intros m1 m2 b1 b2 j1 j2 e1 e2 l x1 Hm Hb Hj He H.
  induction H as [|l x i y m' H [x2 [IH Hx]] Hr|l1 l2 x y H1 [x2 [IH1 Hx]] H2 [y2 [IH2 Hy]]].
  - exists e2. split; auto. constructor.
  - assert (K := like_runs P (b1 i x) (b2 i x2) (Hb i _ _ Hx) Hm). rewrite Hr in K.
    destruct (run (b2 i x2) m2) as [z2 m2'|] eqn:E; [|tauto]. exists z2. split; [econstructor; eauto|tauto].
  - exists (j2 x2 y2). split; auto. constructor; auto.
Qed.
Lemma red_result_like : forall X1 X2 (Q : X1 -> X2 -> Prop) m1 m2 x1 p1, mem_related R m1 m2 -> red_result m1 x1 p1 ->
  forall p2, red_like Q p1 p2 -> exists x2, red_result m2 x2 p2 /\ Q x1 x2.
Proof.
  intros X1 X2 Q m1 m2 x1 p1 Hm H. induction H as [|q k x m' Hr H IH|n b j e k l x Hl Hp H IH]; intros [y| | |q2 k2|n2 b2 j2 e2 k2] Hk; simpl in Hk; try tauto.
  - exists y. split; auto. constructor.
  - destruct Hk as [Hq Hk]. assert (K := like_runs P q q2 Hq Hm). rewrite Hr in K. destruct (run q2 m2) as [z2 m2'|] eqn:E; [|tauto].
    destruct (IH (k2 z2)) as [w [W1 W2]]; [apply Hk; tauto|]. exists w. split; auto. econstructor; eauto.
  - destruct Hk as (En & Hb & Hj & He & Hk). subst n2.
    destruct (@partial_like m1 m2 b b2 j j2 e e2 l x Hm Hb Hj He Hp) as [x2 [Px Qx]]. destruct (IH (k2 x2)) as [w [W1 W2]]; [auto|].
    exists w. split; auto. econstructor; eauto.
Qed.
Lemma rview_like : forall X1 X2 (Q : X1 -> X2 -> Prop) M1 M2 k1 k2, mat_related R M1 M2 ->
  (forall V1 V2, mat_related R V1 V2 -> red_like Q (k1 V1) (k2 V2)) -> red_like Q (rview_m M1 k1) (rview_m M2 k2).
Proof.
  intros X1 X2 Q B1 B2 k1 k2 [Eb [E0 [E1 [El Ha]]]] Hk. unfold rview_m. rewrite El.
  destruct (mlay B2) as [| | | | |l|]; simpl; auto; try (destruct l; simpl; auto); apply Hk; unfold mat_related; simpl; auto.
Qed.
End RedRel.
Lemma red_flip : forall (O1 O2 : ops) (R : O1 -> O2 -> Prop) A1 A2 (P : A1 -> A2 -> Prop) X1 X2 (Q : X1 -> X2 -> Prop) p1 p2,
  red_like R P Q p1 p2 -> red_like (fun y x => R x y) (fun y x => P x y) (fun y x => Q x y) p2 p1.
Proof.
  intros O1 O2 R A1 A2 P X1 X2 Q. induction p1 as [x1| | |q1 k1 IH|n1 b1 j1 e1 k1 IH]; intros [x2| | |q2 k2|n2 b2 j2 e2 k2] H; simpl in *; try tauto.
  - destruct H as [H1 H2]. split; [apply like_flip; auto|auto].
  - destruct H as (En & Hb & Hj & He & Hk). split; [auto|]. split; [intros; apply like_flip; auto|]. split; [auto|]. split; auto.
Qed.
Lemma red_like_related : forall (O1 O2 : ops) (R : O1 -> O2 -> Prop) A1 A2 (P : A1 -> A2 -> Prop) X1 X2 (Q : X1 -> X2 -> Prop) p1 p2,
  red_like R P Q p1 p2 -> related_red R Q p1 p2.
Proof.
  intros O1 O2 R A1 A2 P X1 X2 Q p1 p2 H. split; [|split].
  - destruct p1, p2; simpl in H; try tauto; split; intros; discriminate || auto.
  - destruct p1, p2; simpl in H; try tauto; split; intros; discriminate || auto.
  - intros m1 m2 Hm. split.
    + intros x1 Hr. eapply red_result_like; eauto.
    + intros x2 Hr. apply mem_flip in Hm. destruct (@red_result_like _ _ (fun y x => R x y) _ _ (fun y x => P x y) _ _ (fun y x => Q x y) m2 m1 x2 p2 Hm Hr p1 (@red_flip _ _ R _ _ P _ _ Q _ _ H)) as [x1 [K1 K2]]. eauto.
Qed.

Section KKRel.
Context {O1 O2 : ops} (R : O1 -> O2 -> Prop) (HR : respects R).
Lemma rel_kk_dot : forall x1 x2 y1 y2 init1 init2, vec_related R x1 x2 -> vec_related R y1 y2 -> R init1 init2 ->
  related_red R R (kk_dot x1 y1 init1) (kk_dot x2 y2 init2).
Proof.
  intros x1 x2 y1 y2 i1 i2 Hx Hy Hi. apply red_like_related with (P := R). unfold kk_dot.
  rewrite (proj1 (proj2 Hx)), (proj1 (proj2 Hy)). destruct (vext x2 =? vext y2); simpl; auto. split; [auto|].
  split; [|split; [|split; [apply resp_zero; auto|intros; apply resp_add; auto]]].
  - intros i a1 a2 Ha. apply like_bind with (P := R); [apply like_vget; auto; apply like_view_v; auto|]. intros b1 b2 Hb.
    apply like_bind with (P := R); [apply like_vget; auto; apply like_view_v; auto|]. intros c1 c2 Hc. simpl.
    apply resp_add; auto. apply resp_mul; auto.
  - intros. apply resp_add; auto.
Qed.
Context {F1 F2 : rops} (S : F1 -> F2 -> Prop) (HS : respects_mag S) (M1 : mags O1 F1) (M2 : mags O2 F2) (HM : mags_related R S M1 M2).
Variables (lo1 : F1) (lo2 : F2) (Hlo : S lo1 lo2).
Lemma kk_max_rel : forall x1 x2 y1 y2, S x1 x2 -> S y1 y2 -> S (kk_max x1 y1) (kk_max x2 y2).
Proof. intros. unfold kk_max. rewrite (resp_rltb HS x1 x2 y1 y2); auto. destruct (rltb x2 y2); auto. Qed.
Lemma std_max_rel : forall x1 x2 y1 y2, S x1 x2 -> S y1 y2 -> S (std_max x1 y1) (std_max x2 y2).
Proof. intros. unfold std_max. rewrite (resp_rltb HS x1 x2 y1 y2); auto. destruct (rltb x2 y2); auto. Qed.
Lemma abs_rel : forall x1 x2, R x1 x2 -> S (eabs M1 x1) (eabs M2 x2).
Proof. apply (proj1 (proj2 HM)). Qed.
Ltac ops := repeat (cbv zeta beta; match goal with
  | |- S (radd _ _) (radd _ _) => apply (resp_radd HS)
  | |- S (rmul _ _) (rmul _ _) => apply (resp_rmul HS)
  | |- S (rdiv _ _) (rdiv _ _) => apply (resp_rdiv HS)
  | |- S (rsqrt _) (rsqrt _) => apply (resp_rsqrt HS)
  | |- S r0 r0 => apply (resp_r0 HS)
  | |- S (kk_max _ _) (kk_max _ _) => apply kk_max_rel
  | |- S (std_max _ _) (std_max _ _) => apply std_max_rel
  | |- S (eabs _ _) (eabs _ _) => apply abs_rel
  end); auto.
Ltac redu := simpl; match goal with
  | |- _ = _ /\ _ => split; [reflexivity|split; [|split; [intros; ops|split; [ops|intros]]]]
  end.
Ltac vbody Hx := let i := fresh in let a := fresh in let b := fresh in let H := fresh in
  intros i a b H; eapply like_bind with (P := R); [apply like_vget; auto; apply like_view_v; exact Hx|]; intros; simpl; ops.
Lemma rel_kk_vector_abs_sum : forall x1 x2 init1 init2, vec_related R x1 x2 -> S init1 init2 ->
  related_red R S (kk_vector_abs_sum M1 x1 init1) (kk_vector_abs_sum M2 x2 init2).
Proof.
  intros x1 x2 i1 i2 Hx Hi. apply red_like_related with (P := S). unfold kk_vector_abs_sum. rewrite (proj1 (proj2 Hx)). redu; [vbody Hx|simpl; ops].
Qed.
Lemma rel_kk_vector_norm2 : forall x1 x2 init1 init2, vec_related R x1 x2 -> S init1 init2 ->
  related_red R S (kk_vector_norm2 M1 x1 init1) (kk_vector_norm2 M2 x2 init2).
Proof.
  intros x1 x2 i1 i2 Hx Hi. apply red_like_related with (P := S). unfold kk_vector_norm2. rewrite (proj1 (proj2 Hx)). redu; [vbody Hx|simpl; ops].
Qed.
Lemma rel_kk_vector_sum_of_squares : forall x1 x2 init1 init2, vec_related R x1 x2 -> ssq_related S init1 init2 ->
  related_red R (ssq_related S) (kk_vector_sum_of_squares M1 lo1 x1 init1) (kk_vector_sum_of_squares M2 lo2 x2 init2).
Proof.
  intros x1 x2 i1 i2 Hx [Hi Hj]. apply red_like_related with (P := S). unfold kk_vector_sum_of_squares. rewrite (proj1 (proj2 Hx)). cbv zeta.
  redu; [vbody Hx|]. redu; [vbody Hx|]. split; simpl; ops.
Qed.
Lemma rel_kk_matrix_frob_norm : forall B1 B2 init1 init2, mat_related R B1 B2 -> S init1 init2 ->
  related_red R S (kk_matrix_frob_norm M1 lo1 B1 init1) (kk_matrix_frob_norm M2 lo2 B2 init2).
Proof.
  intros B1 B2 i1 i2 HB Hi. apply red_like_related with (P := S). unfold kk_matrix_frob_norm. assert (HB' := HB). destruct HB' as (_ & E0 & E1 & _). rewrite E0, E1.
  destruct ((ext0 B2 =? 0) || (ext1 B2 =? 0)); [simpl; auto|]. destruct ((ext0 B2 =? 1) && (ext1 B2 =? 1)).
  - simpl. split; [|intros; ops]. eapply like_bind with (P := R); [apply like_mget; auto|]. intros. simpl. ops.
  - apply rview_like with (R := R); auto. intros V1 V2 HV. cbv zeta. assert (HV' := HV). destruct HV' as (_ & E2 & E3 & _). rewrite E2, E3.
    redu; [intros; eapply like_bind with (P := R); [apply like_mget; auto|]; intros; simpl; ops|].
    redu; [intros; eapply like_bind with (P := R); [apply like_mget; auto|]; intros; simpl; ops|]. simpl; ops.
Qed.
Lemma line_like : forall n el1 el2, (forall j, like R R (el1 j) (el2 j)) -> like R S (kk_line_sum M1 n el1) (kk_line_sum M2 n el2).
Proof.
  intros n el1 el2 He. unfold kk_line_sum. eapply like_bind with (P := R); [apply He|]. intros a1 a2 Ha. apply like_fold_range; [|ops].
  intros i y1 y2 Hy. eapply like_bind with (P := R); [apply He|]. intros. simpl. ops.
Qed.
Lemma rel_kk_matrix_inf_norm : forall B1 B2 init1 init2, mat_related R B1 B2 -> S init1 init2 ->
  related_red R S (kk_matrix_inf_norm M1 lo1 B1 init1) (kk_matrix_inf_norm M2 lo2 B2 init2).
Proof.
  intros B1 B2 i1 i2 HB Hi. apply red_like_related with (P := S). unfold kk_matrix_inf_norm. assert (HB' := HB). destruct HB' as (_ & E0 & E1 & _). rewrite E0, E1.
  destruct ((ext0 B2 =? 0) || (ext1 B2 =? 0)); [simpl; auto|].
  apply rview_like with (R := R); auto. intros V1 V2 HV. cbv zeta. assert (HV' := HV). destruct HV' as (_ & E2 & E3 & _). rewrite E2, E3.
  redu; [intros; eapply like_bind with (P := S); [apply line_like; intros; apply like_mget; auto|]; intros; simpl; ops|]. simpl; ops.
Qed.
Lemma rel_kk_matrix_one_norm : forall B1 B2 init1 init2, mat_related R B1 B2 -> S init1 init2 ->
  related_red R S (kk_matrix_one_norm M1 lo1 B1 init1) (kk_matrix_one_norm M2 lo2 B2 init2).
Proof.
  intros B1 B2 i1 i2 HB Hi. apply red_like_related with (P := S). unfold kk_matrix_one_norm. assert (HB' := HB). destruct HB' as (_ & E0 & E1 & _). rewrite E1.
  destruct (ext1 B2 =? 0); [simpl; auto|].
  apply rview_like with (R := R); auto. intros V1 V2 HV. cbv zeta. assert (HV' := HV). destruct HV' as (_ & E2 & E3 & _). rewrite E2, E3.
  redu; [intros; eapply like_bind with (P := S); [apply line_like; intros; apply like_mget; auto|]; intros; simpl; ops|]. simpl; ops.
Qed.
End KKRel.

Section GivensRel.
Context {F1 F2 : fops} (S : F1 -> F2 -> Prop) (HS : respects_float S).
Variables (sm1 sf1 : F1) (sm2 sf2 : F2) (Hsm : S sm1 sm2) (Hsf : S sf1 sf2).
Notation HB := (resp_base HS).
Lemma smax_rel : forall x1 x2 y1 y2, S x1 x2 -> S y1 y2 -> S (std_max x1 y1) (std_max x2 y2).
Proof. intros. unfold std_max. rewrite (resp_rltb HB x1 x2 y1 y2); auto. destruct (rltb x2 y2); auto. Qed.
Lemma safmx2_rel : S (safmx2 sm1) (safmx2 sm2).
Proof. unfold safmx2. apply (resp_rdiv HB); auto. apply (resp_r1 HB). Qed.
Ltac gops := repeat (cbv zeta beta; match goal with
  | |- S (radd _ _) (radd _ _) => apply (resp_radd HB)
  | |- S (rsub _ _) (rsub _ _) => apply (resp_rsub HS)
  | |- S (rmul _ _) (rmul _ _) => apply (resp_rmul HB)
  | |- S (rdiv _ _) (rdiv _ _) => apply (resp_rdiv HB)
  | |- S (rsqrt _) (rsqrt _) => apply (resp_rsqrt HB)
  | |- S (rabs _) (rabs _) => apply (resp_rabs HB)
  | |- S (ropp _) (ropp _) => apply (resp_ropp HS)
  | |- S (rhypot _ _) (rhypot _ _) => apply (resp_rhypot HS)
  | |- S r0 r0 => apply (resp_r0 HB)
  | |- S r1 r1 => apply (resp_r1 HB)
  | |- S (std_max _ _) (std_max _ _) => apply smax_rel
  | |- S (safmx2 _) (safmx2 _) => apply safmx2_rel
  end); auto.
Notation S3 := (pair_related (pair_related S S) S).
Lemma sdown_rel : forall fuel c f1 f2 g1 g2, S f1 f2 -> S g1 g2 ->
  option_related (pair_related (pair_related eq S) S) (scale_down sm1 fuel c f1 g1) (scale_down sm2 fuel c f2 g2).
Proof.
  induction fuel; intros c f1 f2 g1 g2 Hf Hg; simpl; auto.
  match goal with |- option_related _ (if rleb ?a ?b then _ else _) (if rleb ?c ?d then _ else _) => rewrite (resp_rleb HS a c b d) by gops; destruct (rleb c d) end.
  - apply IHfuel; gops.
  - repeat split; simpl; gops.
Qed.
Lemma sup_rel : forall fuel c f1 f2 g1 g2, S f1 f2 -> S g1 g2 ->
  option_related (pair_related (pair_related eq S) S) (scale_up sm1 fuel c f1 g1) (scale_up sm2 fuel c f2 g2).
Proof.
  induction fuel; intros c f1 f2 g1 g2 Hf Hg; simpl; auto.
  match goal with |- option_related _ (if rleb ?a ?b then _ else _) (if rleb ?c ?d then _ else _) => rewrite (resp_rleb HS a c b d) by gops; destruct (rleb c d) end.
  - apply IHfuel; gops.
  - repeat split; simpl; gops.
Qed.
Lemma times_rel : forall A1 A2 (P : A1 -> A2 -> Prop) n h1 h2 x1 x2, (forall a1 a2, P a1 a2 -> P (h1 a1) (h2 a2)) -> P x1 x2 -> P (times n h1 x1) (times n h2 x2).
Proof. intros A1 A2 P n h1 h2 x1 x2 Hh Hx. unfold times. induction n; simpl; auto. Qed.
Lemma scaled_rel : forall fuel f1 f2 g1 g2, S f1 f2 -> S g1 g2 ->
  option_related S3 (scaled_rotation sm1 fuel f1 g1) (scaled_rotation sm2 fuel f2 g2).
Proof.
  intros fuel f1 f2 g1 g2 Hf Hg. unfold scaled_rotation. cbv zeta.
  match goal with |- option_related _ (if rleb ?a ?b then _ else _) (if rleb ?c ?d then _ else _) => rewrite (resp_rleb HS a c b d) by gops; destruct (rleb c d) end.
  { assert (K := sdown_rel fuel 0 Hf Hg). destruct (scale_down sm1 fuel 0 f1 g1) as [[[c1 a1] b1]|], (scale_down sm2 fuel 0 f2 g2) as [[[c2 a2] b2]|]; simpl in K |- *; try tauto.
    destruct K as [[Kc Ka] Kb]. simpl in *. subst c2. repeat split; simpl; gops. apply times_rel; intros; gops. }
  match goal with |- option_related _ (if rleb ?a ?b then _ else _) (if rleb ?c ?d then _ else _) => rewrite (resp_rleb HS a c b d) by gops; destruct (rleb c d) end.
  { assert (K := sup_rel fuel 0 Hf Hg). destruct (scale_up sm1 fuel 0 f1 g1) as [[[c1 a1] b1]|], (scale_up sm2 fuel 0 f2 g2) as [[[c2 a2] b2]|]; simpl in K |- *; try tauto.
    destruct K as [[Kc Ka] Kb]. simpl in *. subst c2. repeat split; simpl; gops. apply times_rel; intros; gops. }
  repeat split; simpl; gops.
Qed.
Lemma rel_setup_givens_rotation : forall fuel f1 f2 g1 g2, S f1 f2 -> S g1 g2 ->
  option_related S3 (setup_givens_rotation sm1 fuel f1 g1) (setup_givens_rotation sm2 fuel f2 g2).
Proof.
  intros fuel f1 f2 g1 g2 Hf Hg. unfold setup_givens_rotation.
  rewrite (resp_reqb HB g1 g2 r0 r0), (resp_reqb HB f1 f2 r0 r0) by gops.
  destruct (reqb g2 r0); [repeat split; simpl; gops|]. destruct (reqb f2 r0); [repeat split; simpl; gops|].
  assert (K := scaled_rel fuel Hf Hg). destruct (scaled_rotation sm1 fuel f1 g1) as [[[a1 b1] c1]|], (scaled_rotation sm2 fuel f2 g2) as [[[a2 b2] c2]|]; simpl in K |- *; try tauto.
  destruct K as [[Ka Kb] Kc]. simpl in *. rewrite (resp_rltb HB (rabs g1) (rabs g2) (rabs f1) (rabs f2)), (resp_rltb HB a1 a2 r0 r0) by gops.
  destruct (rltb (rabs g2) (rabs f2) && rltb a2 r0)%bool; repeat split; simpl; gops.
Qed.
Notation SC := (pair_related S S).
Lemma cscale_rel : forall z1 z2 a1 a2, SC z1 z2 -> S a1 a2 -> SC (cscale z1 a1) (cscale z2 a2).
Proof. intros z1 z2 a1 a2 [H1 H2] Ha. split; simpl; gops. Qed.
Lemma cmul_rel : forall x1 x2 y1 y2, SC x1 x2 -> SC y1 y2 -> SC (cmul x1 y1) (cmul x2 y2).
Proof. intros x1 x2 y1 y2 [H1 H2] [H3 H4]. split; simpl; gops. Qed.
Lemma cadd_rel : forall x1 x2 y1 y2, SC x1 x2 -> SC y1 y2 -> SC (cadd x1 y1) (cadd x2 y2).
Proof. intros x1 x2 y1 y2 [H1 H2] [H3 H4]. split; simpl; gops. Qed.
Lemma cscalel_rel : forall z1 z2 a1 a2, SC z1 z2 -> S a1 a2 -> SC (cscalel a1 z1) (cscalel a2 z2).
Proof. intros z1 z2 a1 a2 [H1 H2] Ha. split; simpl; gops. Qed.
Lemma ciszero_rel : forall z1 z2, SC z1 z2 -> ciszero z1 = ciszero z2.
Proof. intros z1 z2 [H1 H2]. unfold ciszero. rewrite (resp_reqb HB (fst z1) (fst z2) r0 r0), (resp_reqb HB (snd z1) (snd z2) r0 r0) by gops. reflexivity. Qed.
Lemma abs1_rel : forall z1 z2, SC z1 z2 -> S (abs1 z1) (abs1 z2).
Proof. intros z1 z2 [H1 H2]. unfold abs1. gops. Qed.
Lemma abssq_rel : forall z1 z2, SC z1 z2 -> S (abssq z1) (abssq z2).
Proof. intros z1 z2 [H1 H2]. unfold abssq. gops. Qed.
Lemma l10_rel : forall fuel c f1 f2 g1 g2 s1 s2, SC f1 f2 -> SC g1 g2 -> S s1 s2 ->
  option_related (pair_related (pair_related eq SC) SC) (label10 sm1 fuel c f1 g1 s1) (label10 sm2 fuel c f2 g2 s2).
Proof.
  induction fuel; intros c f1 f2 g1 g2 s1 s2 Hf Hg Hs; simpl; auto.
  match goal with |- option_related _ (if rleb ?a ?b then _ else _) (if rleb ?c ?d then _ else _) => rewrite (resp_rleb HS a c b d) by gops; destruct (rleb c d) end.
  - apply IHfuel; try apply cscale_rel; gops.
  - split; [split|]; cbn [fst snd]; auto; apply cscale_rel; gops.
Qed.
Lemma l20_rel : forall fuel c f1 f2 g1 g2 s1 s2, SC f1 f2 -> SC g1 g2 -> S s1 s2 ->
  option_related (pair_related (pair_related eq SC) SC) (label20 sm1 fuel c f1 g1 s1) (label20 sm2 fuel c f2 g2 s2).
Proof.
  induction fuel; intros c f1 f2 g1 g2 s1 s2 Hf Hg Hs; simpl; auto.
  match goal with |- option_related _ (if rleb ?a ?b then _ else _) (if rleb ?c ?d then _ else _) => rewrite (resp_rleb HS a c b d) by gops; destruct (rleb c d) end.
  - apply IHfuel; try apply cscale_rel; gops.
  - split; [split|]; cbn [fst snd]; auto; apply cscale_rel; gops.
Qed.
Notation SR := (pair_related (pair_related S SC) SC).
Lemma unscale_rel : forall c r1 r2, SC r1 r2 -> SC (unscale sm1 c r1) (unscale sm2 c r2).
Proof.
  intros c r1 r2 Hr. unfold unscale. destruct (c =? 0)%Z; auto. destruct (0 <? c)%Z; apply times_rel; auto; intros; apply cscale_rel; gops.
Qed.
Lemma rare_rel : forall f1 f2 g1 g2 fs1 fs2 gs1 gs2 q1 q2, SC f1 f2 -> SC g1 g2 -> SC fs1 fs2 -> SC gs1 gs2 -> S q1 q2 ->
  SR (rare_case sm1 f1 g1 fs1 gs1 q1) (rare_case sm2 f2 g2 fs2 gs2 q2).
Proof.
  intros f1 f2 g1 g2 fs1 fs2 gs1 gs2 q1 q2 Hf Hg Hfs Hgs Hq. unfold rare_case. cbv zeta. rewrite (ciszero_rel Hf).
  assert (HF := abs1_rel Hf). rewrite (resp_rltb HB r1 r1 (abs1 f1) (abs1 f2)) by gops.
  assert (Hf' := Hf). assert (Hg' := Hg). destruct Hf' as [a1 a2], Hg' as [b1 b2], Hfs as [c1 c2], Hgs as [d1 d2].
  destruct (ciszero f2); [repeat split; simpl; gops|].
  destruct (rltb r1 (abs1 f2)).
  all: split; [split|]; cbn [fst snd]; [gops|apply cmul_rel; split; cbn [fst snd]; gops|].
  all: apply cadd_rel; [apply cscalel_rel; gops|apply cmul_rel; auto; apply cmul_rel; split; cbn [fst snd]; gops].
Qed.
Lemma common_rel : forall c fs1 fs2 gs1 gs2 q1 q2 p1 p2, SC fs1 fs2 -> SC gs1 gs2 -> S q1 q2 -> S p1 p2 ->
  SR (common_case sm1 c fs1 gs1 p1 q1) (common_case sm2 c fs2 gs2 p2 q2).
Proof.
  intros c fs1 fs2 gs1 gs2 q1 q2 p1 p2 [a1 a2] [b1 b2] Hq Hp. unfold common_case. cbv zeta.
  split; [split|]; cbn [fst snd]; [gops|apply cmul_rel; split; cbn [fst snd cconj]; gops|apply unscale_rel; split; cbn [fst snd]; gops].
Qed.
Lemma crot_rel : forall c f1 f2 g1 g2 fs1 fs2 gs1 gs2, SC f1 f2 -> SC g1 g2 -> SC fs1 fs2 -> SC gs1 gs2 ->
  SR (complex_rotation sf1 sm1 c f1 g1 fs1 gs1) (complex_rotation sf2 sm2 c f2 g2 fs2 gs2).
Proof.
  intros c f1 f2 g1 g2 fs1 fs2 gs1 gs2 Hf Hg Hfs Hgs. unfold complex_rotation. cbv zeta.
  assert (K1 := abssq_rel Hfs). assert (K2 := abssq_rel Hgs).
  match goal with |- SR (if rleb ?a ?b then _ else _) (if rleb ?c ?d then _ else _) => rewrite (resp_rleb HS a c b d) by gops; destruct (rleb c d) end.
  - apply rare_rel; auto.
  - apply common_rel; auto.
Qed.
Lemma rel_setup_givens_rotation_complex : forall fuel f1 f2 g1 g2, SC f1 f2 -> SC g1 g2 ->
  option_related SR (setup_givens_rotation_complex sf1 sm1 fuel f1 g1) (setup_givens_rotation_complex sf2 sm2 fuel f2 g2).
Proof.
  intros fuel f1 f2 g1 g2 Hf Hg. unfold setup_givens_rotation_complex. cbv zeta.
  assert (K1 := abs1_rel Hf). assert (K2 := abs1_rel Hg). assert (KS := smax_rel K1 K2).
  match goal with |- option_related _ (if rleb ?a ?b then _ else _) (if rleb ?c ?d then _ else _) => rewrite (resp_rleb HS a c b d) by gops; destruct (rleb c d) end.
  { assert (K := l10_rel fuel 0 Hf Hg KS). destruct (label10 sm1 fuel 0 f1 g1 _) as [[[a1 b1] c1]|], (label10 sm2 fuel 0 f2 g2 _) as [[[a2 b2] c2]|]; simpl in K |- *; try tauto.
    destruct K as [[Ka Kb] Kc]. simpl in *. subst a2. apply crot_rel; auto. }
  match goal with |- option_related _ (if rleb ?a ?b then _ else _) (if rleb ?c ?d then _ else _) => rewrite (resp_rleb HS a c b d) by gops; destruct (rleb c d) end.
  { rewrite (ciszero_rel Hg). rewrite (resp_risnan HS (rhypot (fst g1) (snd g1)) (rhypot (fst g2) (snd g2))) by (destruct Hg; gops).
    destruct (ciszero g2 || risnan (rhypot (fst g2) (snd g2)))%bool.
    { split; [split|]; cbn [fst snd]; [gops|split; simpl; gops|auto]. }
    assert (K := l20_rel fuel 0 Hf Hg KS). destruct (label20 sm1 fuel 0 f1 g1 _) as [[[a1 b1] c1]|], (label20 sm2 fuel 0 f2 g2 _) as [[[a2 b2] c2]|]; simpl in K |- *; try tauto.
    destruct K as [[Ka Kb] Kc]. simpl in *. subst a2. apply crot_rel; auto. }
  apply crot_rel; auto.
Qed.
End GivensRel.

(** Error bounds of sums of complex products in contracted arithmetic. *)
From Coq Require Import List Arith ZArith Reals Lia Lra Psatz Bool FunctionalExtensionality.
From Flocq Require Import Core.Core IEEE754.BinarySingleNaN.
From Verif Require Import Mem Scalar View Spec SpecR SpecF SpecF2 SpecC SpecC2 SpecRel Idx Wp Loops Sums Norm Ieee Fma SpecFma Trace SpecTrace FmaC SpecFmaC
  PfIeee PfApprox PfFloat2 PfFma PfTrace PfComplex.
Local Open Scope R_scope.

Section FmaC.
Context (prec emax : Z) (Hp : Prec_gt_0 prec) (He : Prec_lt_emax prec emax).
Notation fl := (binary_float prec emax).
Notation F := (fma_ops prec emax Hp He).
Notation C := (fma_cx_ops prec emax Hp He).
Notation cfl := (fl * fl)%type.
Notation u := (unit_roundoff prec).
Notation eta := (half_tiny prec emax).
Notation maxf := (max_finite prec emax).
Notation papp := (papp prec emax).
Notation approximates := (@approximates prec emax).
Implicit Types (x M D : R) (E : nat).

(** * Opposites, differences, subsets *)
Lemma approx_opp : forall E ok x M D (r : fl), approximates E ok x M D r -> approximates E ok (- x) M D (Bopp r).
Proof.
  intros E ok x M D r [H1 H2]. split; [|intros; rewrite is_finite_Bopp; auto]. rewrite is_finite_Bopp, B2R_Bopp. intros Hf.
  destruct (H1 Hf) as [K1 K2]. split; auto. replace (- B2R r - - x) with (- (B2R r - x)) by ring. rewrite Rabs_Ropp. auto.
Qed.
Lemma papp_opp : forall E ok x M D P, papp E ok x M D P -> papp E ok (- x) M D (c_opp prec emax P).
Proof.
  intros E ok x M D P [V Q B B1]. constructor; auto; [| |rewrite Rabs_Ropp; auto].
  - intros r Hr. simpl in Hr. rewrite <- (Bopp_involutive _ _ r). apply approx_opp. auto.
  - intros a b Hab. simpl in Hab. destruct (Q _ _ Hab) as (E' & D' & -> & -> & K3 & K4 & K5). exists E', D'. do 3 (split; auto).
    rewrite !is_finite_Bopp in K4, K5. split; auto. intros Fa Fb. destruct (K4 Fa Fb) as [K6 K7]. split; auto.
    unfold bnd in *. rewrite B2R_Bopp in K7. replace (B2R a * B2R b - - x) with (- (- B2R a * B2R b - x)) by ring. rewrite Rabs_Ropp. auto.
Qed.
Lemma papp_minus : forall E ok1 x1 M1 D1 P1 ok2 x2 M2 D2 P2, papp E ok1 x1 M1 D1 P1 -> papp E ok2 x2 M2 D2 P2 ->
  papp (E + 1) (ok1 /\ ok2) (x1 - x2) (M1 + M2) (D1 + D2) (@sub F P1 P2).
Proof.
  intros E ok1 x1 M1 D1 P1 ok2 x2 M2 D2 P2 A1 A2.
  pose proof (papp_M _ _ _ _ _ _ _ _ A1). pose proof (papp_M _ _ _ _ _ _ _ _ A2).
  pose proof A1 as [V1 Q1 B1 C1]. pose proof A2 as [V2 Q2 B2 C2].
  constructor; try lra; [|intros ? ? []|unfold Rminus; eapply Rle_trans; [apply Rabs_triang|]; rewrite Rabs_Ropp; lra].
  intros r [(r1 & r2 & K1 & K2 & ->)|[(a & b & r2 & K1 & K2 & ->)|(r1 & a & b & K1 & K2 & ->)]].
  - apply (ap_spec prec emax). apply appr_minus; eapply papp_val; eassumption.
  - destruct (Q1 a b K1) as (E' & D' & EE & -> & K3 & K4 & K5). unfold Rminus.
    apply fma_appr; auto; [intros Fa Fb; destruct (K4 Fa Fb); split; auto; eapply bnd_weaken; [eassumption|lia|lra|lra]|].
    constructor; [apply approx_opp; auto|rewrite Rabs_Ropp; auto|auto].
  - destruct (Q2 a b K2) as (E' & D' & EE & -> & K3 & K4 & K5).
    replace (x1 - x2) with (- x2 + x1) by ring. replace (M1 + M2) with (M2 + M1) by ring. replace (D1 + (D' + eta)) with (D' + eta + D1) by ring.
    assert (K : approximates (E + 1) (ok2 /\ ok1) (- x2 + x1) (M2 + M1) (D' + eta + D1) (Bfma mode_NE (Bopp a) b r1)).
    { apply fma_appr; auto; [|rewrite is_finite_Bopp; auto|rewrite Rabs_Ropp; auto|eapply papp_val; eassumption].
      rewrite is_finite_Bopp. intros Fa Fb. destruct (K4 Fa Fb) as [K6 K7]. split; auto.
      unfold bnd in *. rewrite B2R_Bopp. replace (- B2R a * B2R b - - x2) with (- (B2R a * B2R b - x2)) by ring. rewrite Rabs_Ropp.
      eapply bnd_weaken; [exact K7|lia|lra|lra]. }
    destruct K as [K6 K7]. split; [intros Hf; destruct (K6 Hf); tauto|intros; apply K7; tauto].
Qed.
Lemma papp_widen : forall E ok x M D P, papp E ok x M D P -> papp E ok x M D (widen prec emax P).
Proof.
  intros E ok x M D P [V Q B B1]. constructor; auto. intros r [Hr|[(q & Hq & Nq) Fr]]; auto.
  destruct (V q Hq) as [K1 K2]. split; [congruence|]. intros Hok HB. exfalso.
  pose proof (K2 Hok HB) as K. destruct q; discriminate.
Qed.
Definition sub_poss (P Q : poss prec emax) : Prop := (forall r, val P r -> val Q r) /\ (forall a b, pend P a b -> pend Q a b).
Lemma papp_sub : forall E ok x M D P Q, sub_poss P Q -> papp E ok x M D Q -> papp E ok x M D P.
Proof. intros E ok x M D P Q [S1 S2] [V W B B1]. constructor; auto. Qed.

(** * Products of inputs *)
(** [P] is at most the number v *)
Definition is_cexact (v : cfl) (P : cx F) : Prop :=
  sub_poss (part_re P) (exactly (fst v)) /\ sub_poss (part_im P) (exactly (snd v)) /\ (is_real P = true -> exists s, snd v = B754_zero s).
Lemma sub_refl : forall P, sub_poss P P. Proof. split; auto. Qed.
Lemma cexact_ex : forall v, is_cexact v (cexactly v).
Proof. intros. split; [apply sub_refl|]. split; [apply sub_refl|discriminate]. Qed.
Lemma cexact_conj : forall v P, is_cexact v P -> is_cexact (conj_of v) (@conj C P).
Proof.
  intros v P (H1 & [H2 H2'] & H3). split; [exact H1|]. split; [|intros Hr; destruct (H3 Hr) as [s Es]; exists (negb s); unfold conj_of; simpl; rewrite Es; reflexivity].
  split; [|intros a b Hab; apply (H2' _ _ Hab)]. intros r Hr. simpl in *. rewrite (H2 _ Hr). apply Bopp_involutive.
Qed.
Lemma cexact_re : forall v P, is_cexact v P -> is_cexact (fst v, B754_zero false) (@re C P).
Proof. intros v P (H1 & H2 & H3). split; [exact H1|]. split; [apply sub_refl|exists false; auto]. Qed.
Lemma papp_mul : forall (a b : fl) (P Q : F), sub_poss P (exactly a) -> sub_poss Q (exactly b) ->
  papp 1 (is_finite a = true /\ is_finite b = true) (B2R a * B2R b) (Rabs (B2R a) * Rabs (B2R b)) eta (@mul F P Q).
Proof.
  intros a b P Q [H1 H2] [K1 K2]. eapply papp_sub; [|apply papp_prod]. split; simpl.
  - intros r (x & y & L1 & L2 & ->). exists x, y. split; [exact (H1 _ L1)|]. split; [exact (K1 _ L2)|reflexivity].
  - intros x y [L1 L2]. split; [exact (H1 _ L1)|exact (K1 _ L2)].
Qed.
(** approximation of both parts *)
Definition cpapp E (ok : Prop) (xr xi Mr Mi D : R) (P : cx F) : Prop :=
  exists okr oki, (ok <-> okr /\ oki) /\ papp E okr xr Mr D (part_re P) /\ papp E oki xi Mi D (part_im P).
Lemma cpapp_spec : forall E ok xr xi Mr Mi D P, cpapp E ok xr xi Mr Mi D P -> all_cvalues P (capproximates E ok xr xi Mr Mi D).
Proof.
  intros E ok xr xi Mr Mi D P (okr & oki & H & [A1 _ _ _] & [A2 _ _ _]) r H1 H2.
  destruct (A1 _ H1) as [K1 K2], (A2 _ H2) as [L1 L2]. unfold capproximates. cbv zeta. split.
  - intros [F1 F2]. destruct (K1 F1), (L1 F2). split; [apply H; auto|]. split; auto.
  - intros Hok HB1 HB2. apply H in Hok. destruct Hok. split; auto.
Qed.
Lemma cpapp_iff : forall E ok ok' xr xi Mr Mi D P, cpapp E ok xr xi Mr Mi D P -> (ok <-> ok') -> cpapp E ok' xr xi Mr Mi D P.
Proof. intros E ok ok' xr xi Mr Mi D P (a & b & H & K1 & K2) HH. exists a, b. split; [rewrite <- HH; auto|auto]. Qed.
Lemma cpapp_weaken : forall E E' ok xr xi Mr Mi D D' P, cpapp E ok xr xi Mr Mi D P -> (E <= E')%nat -> D <= D' -> cpapp E' ok xr xi Mr Mi D' P.
Proof.
  intros E E' ok xr xi Mr Mi D D' P (a & b & H & K1 & K2) HE HD. exists a, b. split; auto.
  split; eapply papp_weaken; eauto; lra.
Qed.
Lemma cpapp_prod : forall v w (P Q : C), is_cexact v P -> is_cexact w Q ->
  cpapp 2 (cfin v /\ cfin w) (prod_re v w) (prod_im v w) (mag_re v w) (mag_im v w) (2 * eta) (@mul C P Q).
Proof.
  intros v w P Q (P1 & P2 & P3) (Q1 & Q2 & Q3). pose proof (eta_pos prec emax).
  change (@mul C P Q) with (cx_mul F (fma_recover prec emax Hp He) P Q). unfold cx_mul, prod_re, prod_im, mag_re, mag_im, rpart, ipart, cfin.
  pose proof (papp_mul _ _ _ _ P1 Q1) as A11. pose proof (papp_mul _ _ _ _ P1 Q2) as A12.
  pose proof (papp_mul _ _ _ _ P2 Q1) as A21. pose proof (papp_mul _ _ _ _ P2 Q2) as A22.
  destruct (is_real P) eqn:EP; [|destruct (is_real Q) eqn:EQ].
  - destruct (P3 eq_refl) as [s ->]. simpl B2R. simpl is_finite. rewrite Rabs_R0, !Rmult_0_l, Rminus_0_r, !Rplus_0_r.
    do 2 eexists. split; [|split; [eapply papp_weaken; [exact A11|..]|eapply papp_weaken; [exact A12|..]]; try lia; lra]. tauto.
  - destruct (Q3 eq_refl) as [s ->]. simpl B2R. simpl is_finite. rewrite Rabs_R0, !Rmult_0_r, Rminus_0_r, !Rplus_0_r, !Rplus_0_l.
    do 2 eexists. split; [|split; [eapply papp_weaken; [exact A11|..]|eapply papp_weaken; [exact A21|..]]; try lia; lra]. tauto.
  - replace (2 * eta) with (eta + eta) by ring.
    do 2 eexists. split; [|split; apply papp_widen; [apply (papp_minus _ _ _ _ _ _ _ _ _ _ _ A11 A22)|apply (papp_plus _ _ _ _ _ _ _ _ _ _ _ _ _ _ _ A12 A21)]]. tauto.
Qed.
Lemma cpapp_plus : forall E ok1 xr1 xi1 Mr1 Mi1 D1 P1 ok2 xr2 xi2 Mr2 Mi2 D2 P2,
  cpapp E ok1 xr1 xi1 Mr1 Mi1 D1 P1 -> cpapp E ok2 xr2 xi2 Mr2 Mi2 D2 P2 ->
  cpapp (E + 1) (ok1 /\ ok2) (xr1 + xr2) (xi1 + xi2) (Mr1 + Mr2) (Mi1 + Mi2) (D1 + D2) (@add C P1 P2).
Proof.
  intros E ok1 xr1 xi1 Mr1 Mi1 D1 P1 ok2 xr2 xi2 Mr2 Mi2 D2 P2 (a1 & b1 & H1 & K1 & L1) (a2 & b2 & H2 & K2 & L2).
  exists (a1 /\ a2), (b1 /\ b2). split; [tauto|]. split; apply papp_plus; auto.
Qed.
Lemma cpapp_plus_zero : forall E ok xr xi Mr Mi D P, cpapp E ok xr xi Mr Mi D P -> cpapp E ok xr xi Mr Mi D (@add C (@zero C) P).
Proof. intros E ok xr xi Mr Mi D P (a & b & H & K & L). exists a, b. split; auto. split; apply papp_plus_zero; auto. Qed.
Lemma cpapp_exact : forall v P, is_cexact v P -> cpapp 0 (cfin v) (rpart v) (ipart v) (Rabs (rpart v)) (Rabs (ipart v)) 0 P.
Proof.
  intros v P (P1 & P2 & _). exists (is_finite (fst v) = true), (is_finite (snd v) = true). split; [reflexivity|].
  split; eapply papp_sub; eauto; apply papp_exact.
Qed.

Section Sum.
Variables (E0 : nat) (t : nat -> C) (ok : nat -> Prop) (xr xi Mr Mi D : nat -> R).
Hypothesis Ht : forall k, cpapp E0 (ok k) (xr k) (xi k) (Mr k) (Mi k) (D k) (t k).
Lemma cpapp_sum : forall n s (S : C), is_cexact s S ->
  cpapp (E0 + n) (cfin s /\ forall k, (k < n)%nat -> ok k) (rpart s + rsum n xr) (ipart s + rsum n xi)
    (Rabs (rpart s) + rsum n Mr) (Rabs (ipart s) + rsum n Mi) (rsum n D) (@sum_from C S 0 n t).
Proof.
  intros n s S HS. induction n as [|n IH].
  - simpl rsum. rewrite !Rplus_0_r. change (@sum_from C S 0 0 t) with S.
    eapply cpapp_iff; [eapply cpapp_weaken; [apply cpapp_exact; eauto|lia|lra]|].
    split; [intros; split; auto; intros; lia|tauto].
  - rewrite sum_from_S.
    pose proof (cpapp_plus _ _ _ _ _ _ _ _ _ _ _ _ _ _ _ IH (cpapp_weaken _ (E0 + n) _ _ _ _ _ _ _ _ (Ht n) ltac:(lia) (Rle_refl _))) as K.
    cbn [rsum]. replace (E0 + Datatypes.S n)%nat with (E0 + n + 1)%nat by lia. rewrite <- !Rplus_assoc.
    eapply cpapp_iff; [exact K|]. split.
    + intros ((K1 & K2) & K3). split; auto. intros k Hk. destruct (Nat.eq_dec k n) as [->|]; auto. apply K2; lia.
    + intros (K1 & K2). split; [split|]; auto.
Qed.
Lemma cpapp_bigsum : forall n,
  cpapp (E0 + Nat.pred n) (forall k, (k < n)%nat -> ok k) (rsum n xr) (rsum n xi) (rsum n Mr) (rsum n Mi) (rsum n D)
    (@sum_from C (@zero C) 0 n t).
Proof.
  assert (K0 : cpapp 0 (cfin (czero (prec := prec) (emax := emax))) 0 0 0 0 0 (@zero C)).
  { pose proof (cpapp_exact czero (@zero C)) as K. unfold rpart, ipart, czero in K. simpl in K. rewrite Rabs_R0 in K. apply K. apply cexact_ex. }
  intros n. induction n as [|n IH].
  - simpl rsum. change (@sum_from C (@zero C) 0 0 t) with (@zero C).
    eapply cpapp_iff; [eapply cpapp_weaken; [exact K0|lia|lra]|].
    split; [intros; lia|]. intros _. split; reflexivity.
  - rewrite sum_from_S. cbn [rsum]. destruct n as [|n].
    + change (@sum_from C (@zero C) 0 0 t) with (@zero C). simpl rsum. rewrite !Rplus_0_l. simpl Nat.pred. rewrite !Nat.add_0_r.
      eapply cpapp_iff; [apply cpapp_plus_zero; apply Ht|].
      split; intros K; [intros k Hk; replace k with 0%nat by lia; auto|apply K; lia].
    + pose proof (cpapp_plus _ _ _ _ _ _ _ _ _ _ _ _ _ _ _ IH (cpapp_weaken _ (E0 + Nat.pred (Datatypes.S n)) _ _ _ _ _ _ _ _ (Ht (Datatypes.S n)) ltac:(lia) (Rle_refl _))) as K.
      simpl Nat.pred in *. replace (E0 + Datatypes.S n)%nat with (E0 + n + 1)%nat by lia.
      eapply cpapp_iff; [exact K|]. split.
      * intros (K2 & K3) k Hk. destruct (Nat.eq_dec k (Datatypes.S n)) as [->|]; auto. apply K2; lia.
      * intros K2. split; [intros; apply K2; lia|apply K2; lia].
Qed.
End Sum.

(** * Sums of products of inputs *)
Lemma acc_sum : forall n s S (f g : nat -> cfl) (f' g' : nat -> C), is_cexact s S -> (forall k, is_cexact (f k) (f' k)) -> (forall k, is_cexact (g k) (g' k)) ->
  all_cvalues (@sum_from C S 0 n (fun k => @mul C (f' k) (g' k))) (caccurate (n + 2) n s f g).
Proof.
  intros n s S f g f' g' HS Hf Hg. unfold caccurate. apply cpapp_spec. rewrite Nat.add_comm. rewrite <- (rsum_const n (2 * eta)).
  eapply cpapp_iff; [eapply cpapp_sum with (ok := fun k => cfin (f k) /\ cfin (g k)); eauto|].
  - intros k. apply cpapp_prod; auto.
  - rewrite all_cfin_iff. tauto.
Qed.
Lemma acc_big : forall n (f g : nat -> cfl) (f' g' : nat -> C), (forall k, is_cexact (f k) (f' k)) -> (forall k, is_cexact (g k) (g' k)) ->
  all_cvalues (@bigsum C n (fun k => @mul C (f' k) (g' k))) (caccurate (n + 1) n czero f g).
Proof.
  intros n f g f' g' Hf Hg. unfold caccurate. apply cpapp_spec. rewrite <- (rsum_const n (2 * eta)).
  change (rpart (czero (prec := prec) (emax := emax))) with 0. change (ipart (czero (prec := prec) (emax := emax))) with 0. rewrite Rabs_R0, !Rplus_0_l.
  assert (CZ : cfin (czero (prec := prec) (emax := emax))) by (split; reflexivity).
  destruct n as [|n].
  - eapply cpapp_iff; [eapply cpapp_weaken; [apply (cpapp_bigsum 0 (fun _ => @zero C) (fun _ => True) (fun _ => 0) (fun _ => 0) (fun _ => 0) (fun _ => 0) (fun _ => 0)) with (n := 0%nat)|lia|apply Rle_refl]|].
    + intros _. exists True, True. split; [tauto|]. pose proof (papp_exact prec emax (B754_zero false)) as K. simpl in K. rewrite Rabs_R0 in K.
      split; (eapply papp_iff; [exact K|tauto]).
    + split; [intros _; split; [exact CZ|split; intros k Hk; lia]|intros _ k Hk; lia].
  - eapply cpapp_iff; [eapply cpapp_weaken; [eapply (cpapp_bigsum 2 _ (fun k => cfin (f k) /\ cfin (g k)))| |apply Rle_refl]|].
    + intros k. apply cpapp_prod; auto.
    + simpl; lia.
    + rewrite all_cfin_iff. tauto.
Qed.
Lemma acc2_sum : forall n s S (f g p q : nat -> cfl) (f' g' p' q' : nat -> C), is_cexact s S ->
  (forall k, is_cexact (f k) (f' k)) -> (forall k, is_cexact (g k) (g' k)) -> (forall k, is_cexact (p k) (p' k)) -> (forall k, is_cexact (q k) (q' k)) ->
  all_cvalues (@sum_from C S 0 n (fun k => @add C (@mul C (f' k) (g' k)) (@mul C (p' k) (q' k)))) (caccurate2 (n + 3) n s f g p q).
Proof.
  intros n s S f g p q f' g' p' q' HS Hf Hg Hp' Hq. unfold caccurate2. apply cpapp_spec. rewrite Nat.add_comm. rewrite <- (rsum_const n (4 * eta)).
  eapply cpapp_iff; [eapply cpapp_sum with (ok := fun k => (cfin (f k) /\ cfin (g k)) /\ (cfin (p k) /\ cfin (q k))); eauto|].
  - intros k. replace (4 * eta) with (2 * eta + 2 * eta) by ring. apply (cpapp_plus 2); apply cpapp_prod; auto.
  - split.
    + intros [K1 K2]. repeat split; intros; try apply K1; apply (K2 k); auto.
    + intros (K1 & K2 & K3 & K4 & K5). split; auto.
Qed.
Lemma conj_twice : forall v : C, conj (conj v) = v.
Proof.
  intros [a [b c] w]. cbn. unfold cx_conj, c_opp. cbn. f_equal. f_equal.
  - extensionality r. rewrite Bopp_involutive. auto.
  - extensionality x. extensionality y. rewrite Bopp_involutive. auto.
Qed.
End FmaC.

(** * Contraction chosen place by place is contained *)
Section Traced.
Context (prec emax : Z) (Hp : Prec_gt_0 prec) (He : Prec_lt_emax prec emax) (fuse : opcode -> hist -> hist -> bool * bool).
Notation fl := (binary_float prec emax).
Notation F := (fma_ops prec emax Hp He).
Notation T := (traced_ops prec emax Hp He fuse).
Variable inf : cx T -> cx T -> fl * fl.
Hypothesis Hinf : forall x y, is_finite (fst (inf x y)) = false /\ is_finite (snd (inf x y)) = false.
Lemma widen_keeps : forall (x : traced prec emax) P, may_be_traced x P -> may_be_traced x (widen prec emax P).
Proof. intros x P [H1 H2]. split; [left; auto|exact H2]. Qed.
Lemma ctraced_respects :
  respects (O1 := traced_cx_ops prec emax Hp He fuse inf) (O2 := fma_cx_ops prec emax Hp He) (@may_be_ctraced prec emax Hp He fuse).
Proof.
  destruct (traced_respects prec emax Hp He fuse) as [[Rz Ra Rs Rm _ _] _]. constructor.
  - split; [exact Rz|]. split; [exact Rz|reflexivity].
  - intros x1 x2 y1 y2 (A1 & A2 & A3) (B1 & B2 & B3). split; [apply Ra; auto|]. split; [apply Ra; auto|reflexivity].
  - intros x1 x2 y1 y2 (A1 & A2 & A3) (B1 & B2 & B3). split; [apply Rs; auto|]. split; [apply Rs; auto|reflexivity].
  - intros x1 x2 y1 y2 (A1 & A2 & A3) (B1 & B2 & B3).
    change (@mul (traced_cx_ops prec emax Hp He fuse inf) x1 y1) with (cx_mul T (t_recover prec emax Hp He fuse inf) x1 y1).
    change (@mul (fma_cx_ops prec emax Hp He) x2 y2) with (cx_mul F (fma_recover prec emax Hp He) x2 y2).
    unfold cx_mul. rewrite A3, B3. destruct (is_real x2); [|destruct (is_real y2)].
    + split; [apply Rm; auto|]. split; [apply Rm; auto|reflexivity].
    + split; [apply Rm; auto|]. split; [apply Rm; auto|reflexivity].
    + pose proof (Rs _ _ _ _ (Rm _ _ _ _ A1 B1) (Rm _ _ _ _ A2 B2)) as K1. pose proof (Ra _ _ _ _ (Rm _ _ _ _ A1 B2) (Rm _ _ _ _ A2 B1)) as K2.
      unfold t_recover, fma_recover. cbn [part_re part_im]. destruct (andb _ _) eqn:N.
      * apply andb_prop in N. destruct N as [N1 N2]. destruct (Hinf x1 y1) as [I1 I2].
        split; [|split; [|reflexivity]]; (split; [|discriminate]); right; (split; [|auto]); eexists; [exact (Logic.conj (proj1 K1) N1)|exact (Logic.conj (proj1 K2) N2)].
      * split; [apply widen_keeps; exact K1|]. split; [apply widen_keeps; exact K2|reflexivity].
  - intros x1 x2 (A1 & [A2 A2'] & A3). split; [exact A1|]. split; [|exact A3].
    split; cbn [cx_conj part_im c_opp val pend t_opp value product conj].
    + simpl. rewrite Bopp_involutive. auto.
    + intros y z. simpl. destruct (product _) as [[a b]|] eqn:E; [|discriminate]. intros K. inversion K; subst. rewrite Bopp_involutive. auto.
  - intros x1 x2 (A1 & A2 & A3). split; [exact A1|]. split; [exact Rz|reflexivity].
Qed.
End Traced.

(** Sums of magnitudes in IEEE arithmetic. *)
From Coq Require Import List Arith ZArith NArith Reals Lia Lra Bool Psatz.
From Flocq Require Import Core.Core IEEE754.BinarySingleNaN.
From Verif Require Import Mem Scalar View Spec SpecR SpecF Norm Ieee Wp PfNorm PfIeee PfIeeeNorm PfIeeeNan.
Local Open Scope R_scope.

Section Sum.
Context (prec emax : Z) (Hp : Prec_gt_0 prec) (He : Prec_lt_emax prec emax).
Notation fl := (binary_float prec emax).
Notation F := (ieee_r prec emax Hp He).
Notation u := (unit_roundoff prec).
Notation maxf := (max_finite prec emax).
Implicit Types (s r : fl) (g : nat -> fl).

(** One addition: errors of the operands in relative form. *)
Lemma add_err : forall S1 S2 T1 T2 A1 A2 W e, Rabs (S1 - T1) <= (W - 1) * A1 -> Rabs (S2 - T2) <= (W - 1) * A2 ->
  Rabs T1 <= A1 -> Rabs T2 <= A2 -> 1 <= W -> Rabs e <= u ->
  Rabs ((S1 + S2) * (1 + e) - (T1 + T2)) <= (W * (1 + u) - 1) * (A1 + A2).
Proof.
  intros S1 S2 T1 T2 A1 A2 W e H1 H2 B1 B2 HW Ee. pose proof (u_pos prec) as U.
  replace ((S1 + S2) * (1 + e) - (T1 + T2)) with (((S1 - T1) + (S2 - T2)) * (1 + e) + (T1 + T2) * e) by ring.
  assert (C1 : Rabs ((S1 - T1) + (S2 - T2)) <= (W - 1) * (A1 + A2)) by (eapply Rle_trans; [apply Rabs_triang|]; lra).
  assert (C2 : Rabs (T1 + T2) <= A1 + A2) by (eapply Rle_trans; [apply Rabs_triang|]; lra).
  assert (C3 : Rabs (1 + e) <= 1 + u) by (eapply Rle_trans; [apply Rabs_triang|]; rewrite Rabs_R1; lra).
  eapply Rle_trans; [apply Rabs_triang|]. rewrite !Rabs_mult.
  assert (Rabs ((S1 - T1) + (S2 - T2)) * Rabs (1 + e) <= (W - 1) * (A1 + A2) * (1 + u)) by (apply Rmult_le_compat; auto using Rabs_pos).
  assert (Rabs (T1 + T2) * Rabs e <= (A1 + A2) * u) by (apply Rmult_le_compat; auto using Rabs_pos).
  lra.
Qed.
Lemma sum_accurate_0 : forall s g, sum_accurate 0 0 s g s.
Proof.
  intros. split.
  - intros H. split; auto. split; [intros i Hi; lia|]. simpl. unfold gam. simpl.
    replace (B2R s - (B2R s + 0)) with 0 by ring. rewrite Rabs_R0. lra.
  - auto.
Qed.
Lemma sum_accurate_S : forall n s g r, sum_accurate n n s g r -> sum_accurate (S n) (S n) s g (Bplus mode_NE r (g n)).
Proof.
  intros n s g r [H1 H2]. pose proof (u_pos prec) as U. pose proof (pow_ge1 prec n) as W1.
  assert (P : 0 <= rsum n (fun k => Rabs (B2R (g k)))) by (apply rsum_abs_nonneg).
  pose proof (Rabs_pos (B2R s)) as PS. pose proof (Rabs_pos (B2R (g n))) as PG.
  assert (T : Rabs (B2R s + rsum n (fun k => B2R (g k))) <= Rabs (B2R s) + rsum n (fun k => Rabs (B2R (g k)))).
  { eapply Rle_trans; [apply Rabs_triang|]. apply Rplus_le_compat_l, rsum_abs_le. }
  split.
  - intros Fr. destruct (Bplus_fin prec emax Hp He r (g n) Fr) as (Fr' & Fg & _ & e & E1 & E2).
    destruct (H1 Fr') as (K1 & K2 & K3). split; auto. split.
    + intros i Hi. destruct (Nat.eq_dec i n) as [->|]; auto. apply K2; lia.
    + rewrite E2. cbn [rsum]. rewrite <- !Rplus_assoc.
      unfold gam in *. replace ((1 + u) ^ S n) with ((1 + u) ^ n * (1 + u)) by (simpl; ring).
      apply add_err; auto; try lra; [|apply (v_le_u prec); auto].
      replace (B2R (g n) - B2R (g n)) with 0 by ring. rewrite Rabs_R0. nra.
  - intros Fs Fg HM. cbn [rsum] in HM. simpl pow in HM.
    set (A := Rabs (B2R s) + rsum n (fun k => Rabs (B2R (g k)))) in *.
    rewrite <- Rplus_assoc in HM. fold A in HM.
    assert (HA : 0 <= A) by (unfold A; lra).
    set (W := (1 + u) ^ n) in *.
    assert (Q : W * (A + Rabs (B2R (g n))) <= maxf).
    { eapply Rle_trans; [|exact HM]. apply Rmult_le_compat_r; [lra|]. nra. }
    assert (Fr : is_finite r = true).
    { apply H2; auto. - intros i Hi; apply Fg; lia. - nra. }
    apply (Bplus_no prec emax Hp He); auto.
    destruct (H1 Fr) as (_ & _ & K3). unfold gam in K3. fold W A in K3.
    eapply Rle_trans; [apply Rabs_triang|].
    assert (Rabs (B2R r) <= W * A).
    { replace (B2R r) with ((B2R s + rsum n (fun k => B2R (g k))) + (B2R r - (B2R s + rsum n (fun k => B2R (g k))))) by ring.
      eapply Rle_trans; [apply Rabs_triang|]. lra. }
    nra.
Qed.
Definition fsum s n g : fl := fold_left (fun s i => Bplus mode_NE s (g i)) (seq 0 n) s.
Lemma fsum_S : forall s n g, fsum s (S n) g = Bplus mode_NE (fsum s n g) (g n).
Proof. intros. unfold fsum. rewrite seq_S, fold_left_app. reflexivity. Qed.
Lemma fsum_acc : forall n s g, sum_accurate n n s g (fsum s n g).
Proof. induction n; intros; [apply sum_accurate_0|]. rewrite fsum_S. apply sum_accurate_S. auto. Qed.

(** NaN and infinity *)
Lemma fsum_nan : forall n s g, (is_nan s = true \/ exists i, (i < n)%nat /\ is_nan (g i) = true) -> is_nan (fsum s n g) = true.
Proof.
  induction n as [|n IH]; intros s g H.
  - destruct H as [H|(i & Hi & _)]; [exact H|lia].
  - rewrite fsum_S. destruct H as [H|(i & Hi & H)].
    + apply plus_nan_l. apply IH; auto.
    + destruct (Nat.eq_dec i n) as [->|N]; [apply plus_nan_r; auto|]. apply plus_nan_l, IH. right. exists i. split; auto; lia.
Qed.
(** Not NaN and not minus infinity *)
Definition upper (x : fl) : Prop := match x with B754_nan | B754_infinity true => False | _ => True end.
Lemma upper_intro : forall x : fl, is_nan x = false -> x <> B754_infinity true -> upper x.
Proof. intros [[]|[]| |] H N; simpl in *; try discriminate; auto. Qed.
Lemma upper_mag : forall x : fl, Babs x = x -> is_nan x = false -> upper x.
Proof. intros [[]|[]| |] H N; simpl in *; try discriminate; auto. Qed.
Lemma nonneg_plus : forall x y : fl, upper x -> Babs y = y -> is_nan y = false ->
  upper (Bplus mode_NE x y) /\ ((x = B754_infinity false \/ y = B754_infinity false) -> Bplus mode_NE x y = B754_infinity false).
Proof.
  intros x y Hx Hy Ny.
  destruct y as [[]|[]| |sy my ey By] eqn:Ey; simpl in Hy, Ny; try discriminate.
  - destruct x as [[]|[]| |sx mx ex Bx] eqn:Ex; simpl in *; try tauto; split; auto; intros [H|H]; discriminate.
  - destruct x as [[]|[]| |sx mx ex Bx] eqn:Ex; simpl in *; try tauto; split; auto.
  - assert (Hpos : 0 <= B2R y).
    { rewrite Ey. rewrite <- Hy. change (0 <= B2R (Babs (B754_finite sy my ey By))). rewrite B2R_Babs. apply Rabs_pos. }
    destruct x as [sx|[]| |sx mx ex Bx] eqn:Ex; simpl in Hx; try (exfalso; exact Hx).
    + simpl. split; auto. intros [H|H]; discriminate.
    + simpl. split; auto.
    + split; [|intros [H|H]; discriminate].
      rewrite <- Ex, <- Ey. 
      assert (Fx : is_finite x = true) by (rewrite Ex; reflexivity). assert (Fy : is_finite y = true) by (rewrite Ey; reflexivity).
      pose proof (Bplus_correct prec emax Hp He mode_NE x y Fx Fy) as C.
      destruct (Rlt_bool _ _) eqn:L in C.
      * destruct C as (_ & C & _). destruct (Bplus mode_NE x y) as [[]|[]| |]; simpl in *; auto; discriminate.
      * destruct C as (C & C').
        assert (Sy : Bsign y = false). { rewrite Ey. simpl. simpl in Hy. injection Hy. auto. }
        rewrite C', Sy in C. destruct (Bplus mode_NE x y) as [[]|[]| |]; simpl in *; try discriminate; auto.
Qed.
Lemma fsum_inf : forall n s g, upper s -> (forall i, (i < n)%nat -> Babs (g i) = g i /\ is_nan (g i) = false) ->
  upper (fsum s n g) /\ ((s = B754_infinity false \/ exists i, (i < n)%nat /\ g i = B754_infinity false) -> fsum s n g = B754_infinity false).
Proof.
  induction n as [|n IH]; intros s g Hs Hg.
  - split; auto. intros [H|(i & Hi & _)]; [exact H|lia].
  - rewrite fsum_S. destruct (IH s g Hs ltac:(intros; apply Hg; lia)) as [K1 K2].
    destruct (Hg n ltac:(lia)) as [A B]. destruct (nonneg_plus _ _ K1 A B) as [C D]. split; auto.
    intros [H|(i & Hi & H)]; apply D.
    + left. apply K2. auto.
    + destruct (Nat.eq_dec i n) as [->|N]; auto. left. apply K2. right. exists i. split; auto; lia.
Qed.

Context {O : ops} (M : mags O F).

Lemma abs_sum_run : forall (m : mem O) x f (init : fl), arithmetic M = true -> vec_holds m x f ->
  run (vector_abs_sum M x init) m = Ok (fsum init (vext x) (fun i => eabs M (f i))) m.
Proof.
  intros m x f init HA Hx. unfold vector_abs_sum. rewrite HA.
  assert (returns (fold_range 0 (vext x) (fun i (s : F) => bind (vget x i) (fun x0 => Ret (radd s (eabs M x0)))) init) m
     (fun r => r = fsum init (vext x) (fun i => eabs M (f i)))) as (r & Hr & ->); [|exact Hr].
  apply returns_fold with (I := fun i r => r = fsum init i (fun i => eabs M (f i))); [lia|reflexivity|].
  intros i a Hi ->. rget. apply returns_ret. rewrite fsum_S. reflexivity.
Qed.
(** The terms of the complex sum: real and imaginary parts alternate. *)
Definition parts (f : nat -> O) (k : nat) : fl :=
  if Nat.even k then Babs (ereal M (f (Nat.div2 k)) : fl) else Babs (eimag M (f (Nat.div2 k)) : fl).
Lemma even_dbl : forall i, Nat.even (2 * i) = true. Proof. intros. apply Nat.even_spec. exists i; auto. Qed.
Lemma even_dbl1 : forall i, Nat.even (S (2 * i)) = false. Proof. intros. rewrite Nat.even_succ. rewrite <- Nat.negb_even, even_dbl. reflexivity. Qed.
Lemma parts_even : forall f i, parts f (2 * i) = Babs (ereal M (f i) : fl).
Proof. intros. unfold parts. rewrite even_dbl, Nat.div2_double. reflexivity. Qed.
Lemma parts_odd : forall f i, parts f (S (2 * i)) = Babs (eimag M (f i) : fl).
Proof. intros. unfold parts. rewrite even_dbl1, Nat.div2_succ_double. reflexivity. Qed.
Lemma abs_sum_c_run : forall (m : mem O) x f (init : fl), arithmetic M = false -> vec_holds m x f ->
  run (vector_abs_sum M x init) m = Ok (fsum init (2 * vext x) (parts f)) m.
Proof.
  intros m x f init HA Hx. unfold vector_abs_sum. rewrite HA.
  assert (returns (fold_range 0 (vext x) (fun i (s : F) => bind (vget x i) (fun x0 => let s1 := radd s (rabs (ereal M x0)) in
     bind (vget x i) (fun x' => Ret (radd s1 (rabs (eimag M x')))))) init) m
     (fun r => r = fsum init (2 * vext x) (parts f))) as (r & Hr & ->); [|exact Hr].
  apply returns_fold with (I := fun i r => r = fsum init (2 * i) (parts f)); [lia|reflexivity|].
  intros i a Hi ->. rget. cbv zeta. rget. apply returns_ret. replace (2 * S i)%nat with (S (S (2 * i))) by lia.
  rewrite !fsum_S, parts_even, parts_odd. reflexivity.
Qed.
Lemma rsum_parts : forall (h : fl -> R) f n, rsum (2 * n) (fun k => h (parts f k)) =
  rsum n (fun i => h (Babs (ereal M (f i) : fl)) + h (Babs (eimag M (f i) : fl))).
Proof.
  intros h f. induction n; auto. replace (2 * S n)%nat with (S (S (2 * n))) by lia. cbn [rsum]. rewrite IHn.
  rewrite parts_even, parts_odd. lra.
Qed.

Lemma abs_sum_float : forall (m : mem O) x f (init : fl), arithmetic M = true -> vec_holds m x f ->
  returns (vector_abs_sum M x init) m (sum_accurate (vext x) (vext x) init (fun i => eabs M (f i) : fl)).
Proof. intros m x f init HA Hx. eexists. split; [apply abs_sum_run; eauto|]. apply fsum_acc. Qed.
Lemma abs_sum_c_float : forall (m : mem O) x f (init : fl), arithmetic M = false -> vec_holds m x f ->
  returns (vector_abs_sum M x init) m (fun r : fl =>
    let T := rsum (vext x) (fun i => Rabs (B2R (ereal M (f i) : fl)) + Rabs (B2R (eimag M (f i) : fl))) in
    (is_finite r = true -> is_finite init = true /\
      (forall i, (i < vext x)%nat -> is_finite (ereal M (f i) : fl) = true /\ is_finite (eimag M (f i) : fl) = true) /\
      Rabs (B2R r - (B2R init + T)) <= gam prec (2 * vext x) * (Rabs (B2R init) + T)) /\
    (is_finite init = true ->
      (forall i, (i < vext x)%nat -> is_finite (ereal M (f i) : fl) = true /\ is_finite (eimag M (f i) : fl) = true) ->
      (1 + u) ^ (2 * vext x) * (Rabs (B2R init) + T) <= maxf -> is_finite r = true)).
Proof.
  intros m x f init HA Hx. eexists. split; [apply abs_sum_c_run; eauto|]. cbv zeta.
  destruct (fsum_acc (2 * vext x) init (parts f)) as [A B].
  assert (E1 : rsum (2 * vext x) (fun k => B2R (parts f k)) = rsum (vext x) (fun i => Rabs (B2R (ereal M (f i) : fl)) + Rabs (B2R (eimag M (f i) : fl)))).
  { rewrite (rsum_parts (fun v => B2R v)). apply rsum_ext. intros. rewrite !B2R_Babs. reflexivity. }
  assert (E2 : rsum (2 * vext x) (fun k => Rabs (B2R (parts f k))) = rsum (vext x) (fun i => Rabs (B2R (ereal M (f i) : fl)) + Rabs (B2R (eimag M (f i) : fl)))).
  { rewrite (rsum_parts (fun v => Rabs (B2R v))). apply rsum_ext. intros. rewrite !B2R_Babs, !Rabs_Rabsolu. reflexivity. }
  rewrite E1, E2 in *. split.
  - intros Fr. destruct (A Fr) as (K1 & K2 & K3). split; auto. split; auto. intros i Hi.
    pose proof (K2 (2 * i)%nat ltac:(lia)) as P1. pose proof (K2 (S (2 * i)) ltac:(lia)) as P2.
    rewrite parts_even, is_finite_Babs in P1. rewrite parts_odd, is_finite_Babs in P2. auto.
  - intros Fi Ff HM. apply B; auto. intros k Hk. unfold parts.
    destruct (Ff (Nat.div2 k)) as [P1 P2]; [rewrite Nat.div2_div; apply Nat.div_lt_upper_bound; lia|].
    destruct (Nat.even k); rewrite is_finite_Babs; auto.
Qed.
Lemma abs_sum_nan : forall (m : mem O) x f (init : fl), arithmetic M = true -> vec_holds m x f ->
  (is_nan init = true \/ exists i, (i < vext x)%nat /\ is_nan (eabs M (f i) : fl) = true) ->
  returns (vector_abs_sum M x init) m (fun r : fl => is_nan r = true).
Proof. intros m x f init HA Hx H. eexists. split; [apply abs_sum_run; eauto|]. apply fsum_nan; auto. Qed.
Lemma abs_sum_inf : forall (m : mem O) x f (init : fl), arithmetic M = true -> vec_holds m x f -> is_nan init = false -> init <> B754_infinity true ->
  (forall i, (i < vext x)%nat -> Babs (eabs M (f i) : fl) = eabs M (f i) /\ is_nan (eabs M (f i) : fl) = false) ->
  returns (vector_abs_sum M x init) m (fun r : fl => is_nan r = false /\
    ((init = B754_infinity false \/ exists i, (i < vext x)%nat /\ eabs M (f i) = (B754_infinity false : fl)) -> r = B754_infinity false)).
Proof.
  intros m x f init HA Hx Ni Mi Hf. pose proof (upper_intro _ Ni Mi) as Hi. eexists. split; [apply abs_sum_run; eauto|].
  destruct (fsum_inf (vext x) init (fun i => eabs M (f i)) Hi Hf) as [K1 K2]. split; auto.
  destruct (fsum _ _ _) as [[]|[]| |]; simpl in *; auto; tauto.
Qed.

(** * Norms of matrices *)
Definition lmax (init : fl) n (h : nat -> fl) : fl := fold_left (fun r i => @std_max F (h i) r) (seq 0 n) init.
Lemma lmax_S : forall init n h, lmax init (S n) h = @std_max F (h n) (lmax init n h).
Proof. intros. unfold lmax. rewrite seq_S, fold_left_app. reflexivity. Qed.
Lemma std_max_R : forall x y : fl, is_finite x = true -> is_finite y = true ->
  is_finite (@std_max F x y : fl) = true /\ B2R (@std_max F x y : fl) = Rmax (B2R x) (B2R y).
Proof.
  intros x y Fx Fy. unfold std_max. change (@rltb F x y) with (Bltb x y). rewrite (Bltb_R prec emax x y Fx Fy).
  destruct (Rlt_dec _ _); split; auto; [rewrite Rmax_right|rewrite Rmax_left]; lra.
Qed.
Lemma max_dist : forall a b c d e, Rabs (a - c) <= e -> Rabs (b - d) <= e -> Rabs (Rmax a b - Rmax c d) <= e.
Proof.
  intros a b c d e H1 H2. apply Rabs_le_inv in H1. apply Rabs_le_inv in H2. apply Rabs_le.
  unfold Rmax. destruct (Rle_dec a b), (Rle_dec c d); lra.
Qed.
Lemma lmax_acc : forall n (init : fl) (h : nat -> fl) y eps, 0 <= eps -> is_finite init = true ->
  (forall i, (i < n)%nat -> is_finite (h i) = true /\ 0 <= y i /\
     Rabs (B2R (h i) - (B2R init + y i)) <= eps * (Rabs (B2R init) + y i)) ->
  is_finite (lmax init n h) = true /\
  Rabs (B2R (lmax init n h) - (B2R init + rmax0 n y)) <= eps * (Rabs (B2R init) + rmax0 n y).
Proof.
  induction n as [|n IH]; intros init h y eps He0 Fi H.
  - split; auto. simpl. replace (_ - _) with 0 by (unfold lmax; simpl; ring). rewrite Rabs_R0. pose proof (Rabs_pos (B2R init)). nra.
  - destruct (IH init h y eps He0 Fi ltac:(intros; apply H; lia)) as [K1 K2]. destruct (H n ltac:(lia)) as (L1 & L2 & L3).
    rewrite lmax_S. destruct (std_max_R (h n) (lmax init n h) L1 K1) as [M1 ->]. split; auto.
    cbn [rmax0]. pose proof (@rmax0_nonneg n y) as PY.
    replace (B2R init + Rmax (rmax0 n y) (y n)) with (Rmax (B2R init + y n) (B2R init + rmax0 n y)).
    + apply max_dist.
      * eapply Rle_trans; [exact L3|]. apply Rmult_le_compat_l; auto. apply Rplus_le_compat_l, Rmax_r.
      * eapply Rle_trans; [exact K2|]. apply Rmult_le_compat_l; auto. apply Rplus_le_compat_l, Rmax_l.
    + rewrite Rmax_comm. unfold Rmax. destruct (Rle_dec _ _), (Rle_dec _ _); lra.
Qed.
Lemma inf_norm_run : forall (m : mem O) A a (init : fl), mat_holds m A a ->
  run (matrix_inf_norm M A init) m = Ok (
    if ((ext0 A =? 0) || (ext1 A =? 0))%nat then init
    else if ((ext0 A =? 1) && (ext1 A =? 1))%nat then fsum init 1 (fun _ => eabs M (a 0 0)%nat)
    else lmax init (ext0 A) (fun i => fsum init (ext1 A) (fun j => eabs M (a i j)))) m.
Proof.
  intros m A a init HA. 
  enough (returns (matrix_inf_norm M A init) m (fun r : F => r =
    (if ((ext0 A =? 0) || (ext1 A =? 0))%nat then init
    else if ((ext0 A =? 1) && (ext1 A =? 1))%nat then fsum init 1 (fun _ => eabs M (a 0 0)%nat)
    else lmax init (ext0 A) (fun i => fsum init (ext1 A) (fun j => eabs M (a i j)))))) as (r & Hr & ->) by exact Hr.
  unfold matrix_inf_norm. destruct (Nat.eqb_spec (ext0 A) 0), (Nat.eqb_spec (ext1 A) 0); simpl orb; try (apply returns_ret; reflexivity).
  destruct ((ext0 A =? 1)%nat && (ext1 A =? 1)%nat) eqn:E.
  { apply andb_prop in E. destruct E as [E1 E2]. apply Nat.eqb_eq in E1, E2. rget. apply returns_ret. reflexivity. }
  apply returns_fold with (I := fun i (r : F) => r = lmax init i (fun i => fsum init (ext1 A) (fun j => eabs M (a i j)))); [lia|reflexivity|].
  intros i r Hi ->. eapply returns_bind with (P := fun s : F => s = fsum init (ext1 A) (fun j => eabs M (a i j))).
  - apply returns_fold with (I := fun j (s : F) => s = fsum init j (fun j => eabs M (a i j))); [lia|reflexivity|].
    intros j s Hj ->. rget. apply returns_ret. rewrite fsum_S. reflexivity.
  - intros s ->. apply returns_ret. rewrite lmax_S. reflexivity.
Qed.
Lemma one_norm_run : forall (m : mem O) A a (init : fl), mat_holds m A a ->
  run (matrix_one_norm M A init) m = Ok (
    if ((ext0 A =? 0) || (ext1 A =? 0))%nat then init
    else if ((ext0 A =? 1) && (ext1 A =? 1))%nat then fsum init 1 (fun _ => eabs M (a 0 0)%nat)
    else lmax init (ext1 A) (fun j => fsum init (ext0 A) (fun i => eabs M (a i j)))) m.
Proof.
  intros m A a init HA. 
  enough (returns (matrix_one_norm M A init) m (fun r : F => r =
    (if ((ext0 A =? 0) || (ext1 A =? 0))%nat then init
    else if ((ext0 A =? 1) && (ext1 A =? 1))%nat then fsum init 1 (fun _ => eabs M (a 0 0)%nat)
    else lmax init (ext1 A) (fun j => fsum init (ext0 A) (fun i => eabs M (a i j)))))) as (r & Hr & ->) by exact Hr.
  unfold matrix_one_norm. destruct (Nat.eqb_spec (ext0 A) 0), (Nat.eqb_spec (ext1 A) 0); simpl orb; try (apply returns_ret; reflexivity).
  destruct ((ext0 A =? 1)%nat && (ext1 A =? 1)%nat) eqn:E.
  { apply andb_prop in E. destruct E as [E1 E2]. apply Nat.eqb_eq in E1, E2. rget. apply returns_ret. reflexivity. }
  apply returns_fold with (I := fun j (r : F) => r = lmax init j (fun j => fsum init (ext0 A) (fun i => eabs M (a i j)))); [lia|reflexivity|].
  intros j r Hj ->. eapply returns_bind with (P := fun s : F => s = fsum init (ext0 A) (fun i => eabs M (a i j))).
  - apply returns_fold with (I := fun i (s : F) => s = fsum init i (fun i => eabs M (a i j))); [lia|reflexivity|].
    intros i s Hi ->. rget. apply returns_ret. rewrite fsum_S. reflexivity.
  - intros s ->. apply returns_ret. rewrite lmax_S. reflexivity.
Qed.
(** Row sums [n] lines of [k] elements each *)
Lemma lines_acc : forall n k (b : nat -> nat -> O) (init : fl),
  is_finite init = true ->
  (forall i j, (i < n)%nat -> (j < k)%nat -> is_finite (eabs M (b i j) : fl) = true /\ 0 <= fmag M (b i j)) ->
  let T := rmax0 n (fun i => rsum k (fun j => fmag M (b i j))) in
  (1 + u) ^ k * (Rabs (B2R init) + T) <= maxf ->
  let r := (if ((n =? 0) || (k =? 0))%nat then init
    else if ((n =? 1) && (k =? 1))%nat then fsum init 1 (fun _ => eabs M (b 0 0)%nat)
    else lmax init n (fun i => fsum init k (fun j => eabs M (b i j)))) in
  is_finite r = true /\ Rabs (B2R r - (B2R init + T)) <= gam prec k * (Rabs (B2R init) + T).
Proof.
  intros n k b init Fi Hf T HM r.
  assert (G0 : 0 <= gam prec k) by (unfold gam; pose proof (pow_ge1 prec k); lra).
  assert (HT : 0 <= T) by apply rmax0_nonneg.
  assert (HL : forall i, (i < n)%nat -> is_finite (fsum init k (fun j => eabs M (b i j))) = true /\
     0 <= rsum k (fun j => fmag M (b i j)) /\
     Rabs (B2R (fsum init k (fun j => eabs M (b i j))) - (B2R init + rsum k (fun j => fmag M (b i j))))
     <= gam prec k * (Rabs (B2R init) + rsum k (fun j => fmag M (b i j)))).
  { intros i Hi. destruct (fsum_acc k init (fun j => eabs M (b i j))) as [A1 A2].
    assert (E : rsum k (fun j => Rabs (B2R (eabs M (b i j) : fl))) = rsum k (fun j => fmag M (b i j))).
    { apply rsum_ext. intros j Hj. apply Rabs_pos_eq. apply Hf; auto. }
    rewrite E in *.
    assert (Fr : is_finite (fsum init k (fun j => eabs M (b i j))) = true).
    { apply A2; auto. - intros j Hj. apply Hf; auto.
      - eapply Rle_trans; [|exact HM]. apply Rmult_le_compat_l; [pose proof (pow_ge1 prec k); lra|]. apply Rplus_le_compat_l.
        apply (@rmax0_ge n (fun i => rsum k (fun j => fmag M (b i j)))); auto. }
    split; auto. split; [apply rsum_nonneg; intros; apply Hf; auto|]. apply A1; auto. }
  unfold r. destruct (Nat.eqb_spec n 0) as [->|N0]; simpl orb.
  { split; auto. replace (_ - _) with 0 by (unfold T; simpl; ring). rewrite Rabs_R0. pose proof (Rabs_pos (B2R init)). nra. }
  destruct (Nat.eqb_spec k 0) as [K0|K0].
  { split; auto. assert (T = 0) as ->.
    { unfold T. rewrite K0. clear. induction n as [|n IH]; cbn [rmax0 rsum] in *; auto. rewrite IH. apply Rmax_left; lra. }
    rewrite Rplus_0_r, Rminus_diag_eq by auto. rewrite Rabs_R0. pose proof (Rabs_pos (B2R init)). nra. }
  destruct ((n =? 1)%nat && (k =? 1)%nat) eqn:E.
  { apply andb_prop in E. destruct E as [E1 E2]. apply Nat.eqb_eq in E1, E2. subst n k.
    destruct (HL 0%nat ltac:(lia)) as (L1 & L2 & L3).
    replace T with (rsum 1 (fun j => fmag M (b 0%nat j))) by (unfold T; cbn [rmax0]; rewrite Rmax_right; auto). auto. }
  apply lmax_acc; auto.
Qed.
Lemma inf_norm_float : forall (m : mem O) A a (init : fl), mat_holds m A a ->
  is_finite init = true ->
  (forall i j, (i < ext0 A)%nat -> (j < ext1 A)%nat -> is_finite (eabs M (a i j) : fl) = true /\ 0 <= fmag M (a i j)) ->
  let T := rmax0 (ext0 A) (fun i => rsum (ext1 A) (fun j => fmag M (a i j))) in
  (1 + u) ^ ext1 A * (Rabs (B2R init) + T) <= maxf ->
  returns (matrix_inf_norm M A init) m (fun r : fl =>
    is_finite r = true /\ Rabs (B2R r - (B2R init + T)) <= gam prec (ext1 A) * (Rabs (B2R init) + T)).
Proof.
  intros m A a init HA Fi Hf T HM. eexists. split; [apply inf_norm_run; eauto|]. apply lines_acc; auto.
Qed.
Lemma one_norm_float : forall (m : mem O) A a (init : fl), mat_holds m A a ->
  is_finite init = true ->
  (forall i j, (i < ext0 A)%nat -> (j < ext1 A)%nat -> is_finite (eabs M (a i j) : fl) = true /\ 0 <= fmag M (a i j)) ->
  let T := rmax0 (ext1 A) (fun j => rsum (ext0 A) (fun i => fmag M (a i j))) in
  (1 + u) ^ ext0 A * (Rabs (B2R init) + T) <= maxf ->
  returns (matrix_one_norm M A init) m (fun r : fl =>
    is_finite r = true /\ Rabs (B2R r - (B2R init + T)) <= gam prec (ext0 A) * (Rabs (B2R init) + T)).
Proof.
  intros m A a init HA Fi Hf T HM. eexists. split; [apply one_norm_run; eauto|].
  rewrite (orb_comm (ext0 A =? 0)%nat), (andb_comm (ext0 A =? 1)%nat). apply (lines_acc (ext1 A) (ext0 A) (fun j i => a i j)); auto.
Qed.
(** Infinities without NaN *)
Lemma lmax_inf : forall n (init : fl) h, is_nan init = false -> (forall i, (i < n)%nat -> upper (h i)) ->
  is_nan (lmax init n h) = false /\ ((exists i, (i < n)%nat /\ h i = B754_infinity false) -> lmax init n h = B754_infinity false).
Proof.
  induction n as [|n IH]; intros init h Hi Hh.
  - split; auto. intros (i & H & _). lia.
  - destruct (IH init h Hi ltac:(intros; apply Hh; lia)) as [K1 K2]. rewrite lmax_S. specialize (Hh n ltac:(lia)).
    unfold std_max. change (@rltb F (h n) (lmax init n h)) with (Bltb (h n) (lmax init n h)). split.
    + destruct (Bltb _ _); auto. destruct (h n) as [[]|[]| |]; simpl in *; auto; tauto.
    + intros (i & Hlt & Ei). destruct (Nat.eq_dec i n) as [->|N].
      * rewrite Ei. destruct (lmax init n h) as [[]|[]| |[]]; reflexivity.
      * rewrite K2 by (exists i; split; auto; lia). destruct (h n) as [[]|[]| |[]]; simpl in *; try reflexivity; tauto.
Qed.
Lemma lines_inf : forall n k (b : nat -> nat -> O) (init : fl), upper init ->
  (forall i j, (i < n)%nat -> (j < k)%nat -> Babs (eabs M (b i j) : fl) = eabs M (b i j) /\ is_nan (eabs M (b i j) : fl) = false) ->
  let r := (if ((n =? 0) || (k =? 0))%nat then init
    else if ((n =? 1) && (k =? 1))%nat then fsum init 1 (fun _ => eabs M (b 0 0)%nat)
    else lmax init n (fun i => fsum init k (fun j => eabs M (b i j)))) in
  is_nan r = false /\ ((exists i j, (i < n)%nat /\ (j < k)%nat /\ eabs M (b i j) = (B754_infinity false : fl)) -> r = B754_infinity false).
Proof.
  intros n k b init Hi Hf r.
  assert (Ni : is_nan init = false) by (destruct init as [[]|[]| |]; simpl in *; auto; tauto).
  unfold r. destruct (Nat.eqb_spec n 0) as [->|N0]; simpl orb.
  { split; auto. intros (i & j & H & _). lia. }
  destruct (Nat.eqb_spec k 0) as [K0|K0].
  { split; auto. intros (i & j & H & H' & _). lia. }
  destruct ((n =? 1)%nat && (k =? 1)%nat) eqn:E.
  { apply andb_prop in E. destruct E as [E1 E2]. apply Nat.eqb_eq in E1, E2. subst n k.
    destruct (fsum_inf 1 init (fun _ => eabs M (b 0 0)%nat) Hi) as [K1 K2]; [intros; apply Hf; lia|]. split.
    - destruct (fsum _ _ _) as [[]|[]| |]; simpl in *; auto; tauto.
    - intros (i & j & H1 & H2 & H). apply K2. right. exists 0%nat. split; [lia|]. replace i with 0%nat in H by lia. replace j with 0%nat in H by lia. auto. }
  assert (HL : forall i, (i < n)%nat -> upper (fsum init k (fun j => eabs M (b i j))) /\
     ((init = B754_infinity false \/ exists j, (j < k)%nat /\ eabs M (b i j) = (B754_infinity false : fl)) -> fsum init k (fun j => eabs M (b i j)) = B754_infinity false)).
  { intros i Hlt. apply fsum_inf; auto. }
  destruct (lmax_inf n init (fun i => fsum init k (fun j => eabs M (b i j))) Ni) as [K1 K2]; [intros; apply HL; auto|].
  split; auto. intros (i & j & H1 & H2 & H). apply K2. exists i. split; auto. apply HL; auto. right. exists j; auto.
Qed.
Lemma inf_norm_inf : forall (m : mem O) A a (init : fl), mat_holds m A a -> is_nan init = false -> init <> B754_infinity true ->
  (forall i j, (i < ext0 A)%nat -> (j < ext1 A)%nat -> Babs (eabs M (a i j) : fl) = eabs M (a i j) /\ is_nan (eabs M (a i j) : fl) = false) ->
  returns (matrix_inf_norm M A init) m (fun r : fl => is_nan r = false /\
    ((exists i j, (i < ext0 A)%nat /\ (j < ext1 A)%nat /\ eabs M (a i j) = (B754_infinity false : fl)) -> r = B754_infinity false)).
Proof. intros m A a init HA Ni Mi Hf. pose proof (upper_intro _ Ni Mi) as Hi. eexists. split; [apply inf_norm_run; eauto|]. apply lines_inf; auto. Qed.
Lemma one_norm_inf : forall (m : mem O) A a (init : fl), mat_holds m A a -> is_nan init = false -> init <> B754_infinity true ->
  (forall i j, (i < ext0 A)%nat -> (j < ext1 A)%nat -> Babs (eabs M (a i j) : fl) = eabs M (a i j) /\ is_nan (eabs M (a i j) : fl) = false) ->
  returns (matrix_one_norm M A init) m (fun r : fl => is_nan r = false /\
    ((exists i j, (i < ext0 A)%nat /\ (j < ext1 A)%nat /\ eabs M (a i j) = (B754_infinity false : fl)) -> r = B754_infinity false)).
Proof.
  intros m A a init HA Ni Mi Hf. pose proof (upper_intro _ Ni Mi) as Hi. eexists. split; [apply one_norm_run; eauto|].
  rewrite (orb_comm (ext0 A =? 0)%nat), (andb_comm (ext0 A =? 1)%nat).
  destruct (lines_inf (ext1 A) (ext0 A) (fun j i => a i j) init Hi ltac:(intros; apply Hf; auto)) as [K1 K2]. split; auto.
  intros (i & j & H1 & H2 & H). apply K2. exists j, i. auto.
Qed.
End Sum.

(** Lemmas for C96: algorithms whose loads depend on the elements, and parallel reductions. *)
From Coq Require Import List Arith NArith ZArith Bool Lia.
From Verif Require Import Mem Scalar View Spec Idx Blas1 Norm Par Red KK KKNorm SpecRel PfRel PfRel2 Acc SpecAcc PfAcc.
Import ListNotations.
Set Implicit Arguments.

Section Seq.
Context {O : ops}.
Lemma accesses_bind : forall A B (p : prog O A) (f : A -> prog O B) m x m', run p m = Ok x m' ->
  accesses (bind p f) m = accesses p m ++ accesses (f x) m'.
Proof.
  intros A B p f. induction p as [y|a k IH|a v k IH|e]; intros m x m' H; simpl in H |- *.
  - inversion H; subst. reflexivity.
  - destruct (m a) as [v|]; [|discriminate]. rewrite (IH v m x m' H). reflexivity.
  - destruct (m a) as [w|]; [|discriminate]. rewrite (IH _ x m' H). reflexivity.
  - discriminate.
Qed.
Lemma run_bind_ok : forall A B (p : prog O A) (f : A -> prog O B) m x m', run p m = Ok x m' -> run (bind p f) m = run (f x) m'.
Proof.
  intros A B p f. induction p as [y|a k IH|a v k IH|e]; intros m x m' H; simpl in H |- *.
  - inversion H; subst. reflexivity.
  - destruct (m a) as [v|]; [|discriminate]. apply IH; auto.
  - destruct (m a) as [w|]; [|discriminate]. apply IH; auto.
  - discriminate.
Qed.
Lemma vget_run : forall (m : mem O) x f i, vec_holds m x f -> i < vext x ->
  run (vget x i) m = Ok (f i) m /\ accesses (vget x i) m = [load_v x i].
Proof.
  intros m x f i H Hi. unfold vget. destruct (Nat.ltb_spec i (vext x)); [|lia].
  destruct (H i Hi) as [v [E1 E2]]. simpl. unfold load_v. rewrite E1, E2. auto.
Qed.
Lemma fold_reads : forall A (m : mem O) (body : nat -> A -> prog O A) (st : nat -> A -> A) (tr : nat -> A -> list access) n lo s,
  (forall i s, lo <= i < lo + n -> run (body i s) m = Ok (st i s) m /\ accesses (body i s) m = tr i s) ->
  forall (state : nat -> A), state 0 = s -> (forall k, k < n -> state (S k) = st (lo + k) (state k)) ->
  run (fold_ lo n body s) m = Ok (state n) m /\
  accesses (fold_ lo n body s) m = flat_map (fun k => tr (lo + k) (state k)) (seq 0 n).
Proof.
  intros A m body st tr. induction n as [|n IH]; intros lo s Hb state H0 HS.
  - simpl. rewrite H0. auto.
  - destruct (Hb lo s) as [R1 R2]; [lia|].
    destruct (IH (S lo) (st lo s) (fun i s' Hi => Hb i s' ltac:(lia)) (fun k => state (S k))) as [I1 I2].
    + rewrite HS by lia. rewrite Nat.add_0_r, H0. reflexivity.
    + intros k Hk. rewrite HS by lia. f_equal. lia.
    + cbn [fold_]. erewrite run_bind_ok by exact R1. erewrite accesses_bind by exact R1. split; [exact I1|].
      rewrite I2, R2. cbn [seq flat_map]. rewrite Nat.add_0_r, H0. f_equal.
      rewrite <- seq_shift, !flat_map_concat_map, map_map. f_equal. apply map_ext. intros k. rewrite Nat.add_succ_r. reflexivity.
Qed.
End Seq.
Lemma flat_map_ext_in' : forall A B (f g : A -> list B) l, (forall a, In a l -> f a = g a) -> flat_map f l = flat_map g l.
Proof. intros A B f g l H. induction l; simpl; auto. rewrite H by (left; auto). rewrite IHl; auto. intros; apply H; right; auto. Qed.

Section Ssq.
Context {O : ops} {F : rops} (M : mags O F).
Definition ssq_next (a : F) (s : @sum_of_squares_result F) : @sum_of_squares_result F :=
  if reqb a r0 then s
  else if rltb (scaling_factor s) a then
    let q := rdiv (scaling_factor s) a in Ssq a (radd r1 (rmul (rmul (scaled_sum_of_squares s) q) q))
  else let q := rdiv a (scaling_factor s) in Ssq (scaling_factor s) (radd (scaled_sum_of_squares s) (rmul q q)).
Fixpoint ssq_states (f : nat -> F) (s : @sum_of_squares_result F) (n : nat) : @sum_of_squares_result F :=
  match n with 0 => s | S k => ssq_next (f k) (ssq_states f s k) end.
Lemma ssq_reads : forall (m : mem O) x f init, vec_holds m x f ->
  (exists r, run (vector_sum_of_squares M x init) m = Ok r m) /\
  accesses (vector_sum_of_squares M x init) m =
  flat_map (fun i => if reqb (eabs M (f i)) r0 then [load_v x i] else [load_v x i; load_v x i]) (seq 0 (vext x)).
Proof.
  intros m x f init H. unfold vector_sum_of_squares. destruct (Nat.eqb_spec (vext x) 0) as [E|E]; [rewrite E; simpl; eauto|].
  unfold fold_range. rewrite Nat.sub_0_r.
  destruct (@fold_reads O _ m (ssq_step M x) (fun i s => ssq_next (eabs M (f i)) s)
    (fun i _ => if reqb (eabs M (f i)) r0 then [load_v x i] else [load_v x i; load_v x i]) (vext x) 0 init) with (state := ssq_states (fun i => eabs M (f i)) init) as [K1 K2].
  - intros i s Hi. destruct (@vget_run O m x f i H) as [R1 R2]; [lia|]. unfold ssq_step.
    erewrite run_bind_ok by exact R1. erewrite accesses_bind by exact R1. rewrite R2. unfold ssq_next.
    destruct (reqb (eabs M (f i)) r0); [auto|].
    erewrite run_bind_ok by exact R1. erewrite accesses_bind by exact R1. rewrite R2.
    cbv zeta. destruct (rltb (scaling_factor s) (eabs M (f i))); auto.
  - reflexivity.
  - intros k Hk. reflexivity.
  - split; [eexists; exact K1|]. rewrite K2. reflexivity.
Qed.
Lemma two_norm_reads : forall (m : mem O) x f init, vec_holds m x f ->
  accesses (vector_two_norm M x init) m =
  flat_map (fun i => if reqb (eabs M (f i)) r0 then [load_v x i] else [load_v x i; load_v x i]) (seq 0 (vext x)).
Proof.
  intros m x f init H. unfold vector_two_norm. destruct (@ssq_reads m x f (Ssq r0 r1) H) as [[r R] A].
  erewrite accesses_bind by exact R. rewrite A. simpl. apply app_nil_r.
Qed.
End Ssq.

Section Idx.
Context {O : ops} {M : Type}.
Lemma idx_arithmetic_reads : forall (mag : O -> M) ltb size_max (m : mem O) v f, vec_holds m v f -> 0 < vext v ->
  accesses (idx_abs_max_arithmetic mag ltb size_max v) m =
  load_v v 0 :: flat_map (fun i => if ltb (largest ltb (fun k => mag (f k)) (i - 1)) (mag (f i)) then [load_v v i; load_v v i] else [load_v v i])
    (seq 1 (vext v - 1)).
Proof.
  intros mag ltb size_max m v f H Hn. unfold idx_abs_max_arithmetic. destruct (Nat.eqb_spec (vext v) 0) as [E|E]; [lia|].
  destruct (@vget_run O m v f 0 H Hn) as [R0 A0]. erewrite accesses_bind by exact R0. rewrite A0. cbn [app]. f_equal.
  pose (where_ := fix w n := match n with 0 => 0 | S k => if ltb (largest ltb (fun k => mag (f k)) k) (mag (f n)) then n else w k end).
  unfold fold_range.
  destruct (@fold_reads O _ m (fun i acc => bind (vget v i) (fun vi => if ltb (snd acc) (mag vi) then bind (vget v i) (fun vi' => Ret (i, mag vi')) else Ret acc))
    (fun i acc => if ltb (snd acc) (mag (f i)) then (i, mag (f i)) else acc)
    (fun i acc => if ltb (snd acc) (mag (f i)) then [load_v v i; load_v v i] else [load_v v i]) (vext v - 1) 1 (0, mag (f 0)))
    with (state := fun k => (where_ k, largest ltb (fun k => mag (f k)) k)) as [K1 K2].
  - intros i s Hi. destruct (@vget_run O m v f i H) as [R1 R2]; [lia|].
    erewrite run_bind_ok by exact R1. erewrite accesses_bind by exact R1. rewrite R2.
    destruct (ltb (snd s) (mag (f i))); [|auto]. erewrite run_bind_ok by exact R1. erewrite accesses_bind by exact R1. rewrite R2. auto.
  - reflexivity.
  - intros k Hk. cbn [snd Nat.add]. simpl. destruct (ltb (largest ltb (fun k0 => mag (f k0)) k) (mag (f (S k)))); reflexivity.
  - erewrite accesses_bind by exact K1. simpl accesses at 2. rewrite app_nil_r, K2.
    rewrite <- seq_shift, !flat_map_concat_map, map_map. f_equal. apply map_ext. intros k. cbn [snd Nat.add]. rewrite Nat.sub_succ, Nat.sub_0_r. reflexivity.
Qed.
Lemma vget_cases : forall (v : vec O) i, vget v i = Fail OutOfBounds \/ vget v i = Get (vaddr v i) (fun u => Ret (acc_read (vacc v) u)).
Proof. intros v i. unfold vget. destruct (i <? vext v); auto. Qed.
Lemma idx_arithmetic_same : forall (mag : O -> M) ltb size_max (m : mem O) v,
  run (idx_abs_max_arithmetic mag ltb size_max v) m = run (vector_idx_abs_max mag ltb size_max v) m.
Proof.
  intros mag ltb size_max m v. unfold idx_abs_max_arithmetic, vector_idx_abs_max. destruct (vext v =? 0); [reflexivity|].
  destruct (vget_cases v 0) as [-> | ->]; [reflexivity|]. cbn [bind run]. destruct (m (vaddr v 0)) as [w|]; [|reflexivity].
  unfold fold_range. generalize (0, mag (acc_read (vacc v) w)). generalize (vext v - 1). generalize 1.
  intros lo n. revert lo. induction n as [|n IH]; intros lo s; [reflexivity|]. cbn [fold_]. destruct s as [a b].
  destruct (vget_cases v lo) as [-> | ->]; [reflexivity|]. cbn [bind run]. destruct (m (vaddr v lo)) as [u|] eqn:Em; [|reflexivity].
  cbn [snd]. destruct (ltb b (mag (acc_read (vacc v) u))); cbn [bind run]; [rewrite Em|]; apply IH.
Qed.
Lemma idx_complex_same : forall (mag mre mim : O -> M) plus ltb size_max (m : mem O) v, (forall a, mag a = plus (mre a) (mim a)) ->
  run (idx_abs_max_complex mre mim plus ltb size_max v) m = run (vector_idx_abs_max mag ltb size_max v) m.
Proof.
  intros mag mre mim plus ltb size_max m v Hm. unfold idx_abs_max_complex, vector_idx_abs_max. destruct (vext v =? 0); [reflexivity|].
  destruct (vget_cases v 0) as [-> | ->]; [reflexivity|]. cbn [bind run]. destruct (m (vaddr v 0)) as [w|] eqn:Ew; [|reflexivity].
  rewrite <- Hm.
  unfold fold_range. generalize (0, mag (acc_read (vacc v) w)). generalize (vext v - 1). generalize 1.
  intros lo n. revert lo. induction n as [|n IH]; intros lo s; [reflexivity|]. cbn [fold_]. destruct s as [a b].
  destruct (vget_cases v lo) as [-> | ->]; [reflexivity|]. cbn [bind run]. destruct (m (vaddr v lo)) as [u|] eqn:Em; [|reflexivity].
  cbn [bind snd]. cbv zeta. rewrite <- Hm. apply IH.
Qed.
End Idx.
Lemma acc_idx_abs_max_complex : forall (O1 O2 : ops) M1 M2 (mre1 mim1 : O1 -> M1) (mre2 mim2 : O2 -> M2) plus1 plus2 ltb1 ltb2 size_max (v1 : vec O1) (v2 : vec O2),
  same_view_v v1 v2 ->
  same_accesses (idx_abs_max_complex mre1 mim1 plus1 ltb1 size_max v1) (idx_abs_max_complex mre2 mim2 plus2 ltb2 size_max v2).
Proof. intros. unfold same_view_v in *. apply like_accesses. unfold idx_abs_max_complex. blind. Qed.

(** * Parallel reductions *)
Fixpoint red_blind {O1 O2 : ops} {A1 A2 X1 X2} (p1 : red O1 A1 X1) (p2 : red O2 A2 X2) : Prop :=
  match p1, p2 with
  | RDone _, RDone _ | RThrow, RThrow | RIllFormed, RIllFormed => True
  | RHost q1 k1, RHost q2 k2 => like any any q1 q2 /\ forall x1 x2, red_blind (k1 x1) (k2 x2)
  | RReduce n1 b1 _ _ k1, RReduce n2 b2 _ _ k2 => n1 = n2 /\
      (forall i s1 s2, like any any (b1 i s1) (b2 i s2)) /\ forall x1 x2, red_blind (k1 x1) (k2 x2)
  | _, _ => False
  end.
Lemma red_accesses : forall (O1 O2 : ops) A1 A2 X1 X2 (p1 : red O1 A1 X1) (p2 : red O2 A2 X2), red_blind p1 p2 -> same_accesses_red p1 p2.
Proof.
  intros O1 O2 A1 A2 X1 X2. induction p1 as [x1| | |q1 k1 IH|n1 b1 j1 e1 k1 IH]; intros [x2| | |q2 k2|n2 b2 j2 e2 k2] H; simpl in H |- *; auto.
  - destruct H as [H1 H2]. split; [apply like_accesses; exact H1|]. intros. apply IH. apply H2.
  - destruct H as [E [H1 H2]]. split; [exact E|]. split; [|intros; apply IH; apply H2]. intros. apply like_given. apply H1.
Qed.
Lemma rview_blind : forall (O1 O2 : ops) A1 A2 X1 X2 (B1 : mat O1) (B2 : mat O2) (k1 : mat O1 -> red O1 A1 X1) (k2 : mat O2 -> red O2 A2 X2), mat_related any B1 B2 ->
  (forall V1 V2, mat_related any V1 V2 -> red_blind (k1 V1) (k2 V2)) -> red_blind (rview_m B1 k1) (rview_m B2 k2).
Proof.
  intros O1 O2 A1 A2 X1 X2 B1 B2 k1 k2 [Eb [E0 [E1 [El Ha]]]] Hk. unfold rview_m. rewrite El.
  destruct (mlay B2) as [| | | | |l|]; simpl; auto; try (destruct l; simpl; auto); apply Hk; unfold mat_related; simpl; auto.
Qed.
Ltac rblind := exts; lazymatch goal with
  | |- red_blind (if ?b then _ else _) (if ?b then _ else _) => destruct b; rblind
  | |- red_blind (RReduce _ _ _ _ _) (RReduce _ _ _ _ _) => split; [reflexivity | split; [intros; cbv zeta; blind | intros; cbv zeta; rblind]]
  | |- red_blind (RHost _ _) (RHost _ _) => split; [blind | intros; rblind]
  | |- red_blind (rview_m _ _) (rview_m _ _) => apply rview_blind; [views | intros; cbv zeta; rblind]
  | |- red_blind _ _ => exact Logic.I
  end.
Ltac red_go := intros; unfold same_view_v, same_view_m in *; apply red_accesses;
  unfold kk_dot, kk_vector_abs_sum, kk_vector_norm2, kk_vector_sum_of_squares, kk_matrix_frob_norm, kk_matrix_inf_norm, kk_matrix_one_norm, kk_line_sum; cbv zeta; rblind.
Section KKAcc.
Context {O1 O2 : ops} {F1 F2 : rops} (M1 : mags O1 F1) (M2 : mags O2 F2) (lo1 : F1) (lo2 : F2).
Lemma acc_kk_dot : forall x1 x2 y1 y2 (init1 : O1) (init2 : O2), same_view_v x1 x2 -> same_view_v y1 y2 ->
  same_accesses_red (kk_dot x1 y1 init1) (kk_dot x2 y2 init2).
Proof. red_go. Qed.
Lemma acc_kk_vector_abs_sum : forall x1 x2 (init1 : F1) (init2 : F2), same_view_v x1 x2 ->
  same_accesses_red (kk_vector_abs_sum M1 x1 init1) (kk_vector_abs_sum M2 x2 init2).
Proof. red_go. Qed.
Lemma acc_kk_vector_norm2 : forall x1 x2 (init1 : F1) (init2 : F2), same_view_v x1 x2 ->
  same_accesses_red (kk_vector_norm2 M1 x1 init1) (kk_vector_norm2 M2 x2 init2).
Proof. red_go. Qed.
Lemma acc_kk_vector_sum_of_squares : forall x1 x2 (init1 : @sum_of_squares_result F1) (init2 : @sum_of_squares_result F2), same_view_v x1 x2 ->
  same_accesses_red (kk_vector_sum_of_squares M1 lo1 x1 init1) (kk_vector_sum_of_squares M2 lo2 x2 init2).
Proof. red_go. Qed.
Lemma acc_kk_matrix_frob_norm : forall B1 B2 (init1 : F1) (init2 : F2), same_view_m B1 B2 ->
  same_accesses_red (kk_matrix_frob_norm M1 lo1 B1 init1) (kk_matrix_frob_norm M2 lo2 B2 init2).
Proof. red_go. Qed.
Lemma acc_kk_matrix_inf_norm : forall B1 B2 (init1 : F1) (init2 : F2), same_view_m B1 B2 ->
  same_accesses_red (kk_matrix_inf_norm M1 lo1 B1 init1) (kk_matrix_inf_norm M2 lo2 B2 init2).
Proof. red_go. Qed.
Lemma acc_kk_matrix_one_norm : forall B1 B2 (init1 : F1) (init2 : F2), same_view_m B1 B2 ->
  same_accesses_red (kk_matrix_one_norm M1 lo1 B1 init1) (kk_matrix_one_norm M2 lo2 B2 init2).
Proof. red_go. Qed.
End KKAcc.

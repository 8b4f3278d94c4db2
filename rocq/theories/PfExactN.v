(** Norms of integers are exact in floating point. *)
From Coq Require Import List Arith ZArith Reals Lia Bool.
From Flocq Require Import Core.Core IEEE754.BinarySingleNaN.
From Verif Require Import Mem Scalar View Spec SpecI SpecR SpecExact SpecExactN SpecOrd Norm Ieee PfIeeeSum PfExactI.
Import ListNotations.

Section N.
Variables prec emax : Z.
Context (Hp : FLX.Prec_gt_0 prec) (He : Prec_lt_emax prec emax).
Context {O : ops} (M : mags O (ieee_r prec emax Hp He)).
Notation fl := (binary_float prec emax).

Lemma fsum_int : forall n (s : fl) z g q, int_valued s z -> (forall k, k < n -> int_valued (g k) (q k)) -> (forall k, k < n -> (0 <= q k)%Z) ->
  fits_in prec (Z.abs z + zsum n q) -> int_valued (fsum prec emax Hp He s n g) (z + zsum n q) /\ (0 <= zsum n q)%Z.
Proof.
  induction n as [|n IH]; intros s z g q Hs Hg Hq Hb; [simpl; rewrite Z.add_0_r; split; auto; lia|]. rewrite fsum_S. unfold fits_in in *. cbn [zsum] in *.
  pose proof (Hq n (Nat.lt_succ_diag_r n)) as Q. destruct (IH s z g q) as [I1 I2]; auto; try lia. rewrite Z.add_assoc. split; [|lia].
  apply int_add; auto. lia.
Qed.
Lemma int_abs : forall (x : fl) z, int_valued x z -> int_valued (Babs x) (Z.abs z).
Proof. intros x z [F E]. split; [rewrite is_finite_Babs; auto|]. rewrite B2R_Babs, E, abs_IZR. reflexivity. Qed.
Lemma max_int : forall (x y : fl) z w, int_valued x z -> int_valued y w -> int_valued (std_max (F := ieee_r prec emax Hp He) x y : fl) (Z.max z w).
Proof.
  intros x y z w [Fx Ex] [Fy Ey]. unfold std_max. simpl. rewrite Bltb_correct, Ex, Ey by auto.
  destruct (Rlt_bool_spec (IZR z) (IZR w)) as [K|K]; [apply lt_IZR in K; rewrite Z.max_r by lia|apply le_IZR in K; rewrite Z.max_l by lia]; split; auto.
Qed.
Lemma abs_sum_int : forall (m : mem O) x f (init : fl) q z, arithmetic M = true -> vec_holds m x f -> int_valued init z ->
  (forall i, i < vext x -> int_valued (emag M (f i)) (q i)) -> (forall i, i < vext x -> (0 <= q i)%Z) ->
  fits_in prec (Z.abs z + zsum (vext x) q) ->
  returns (vector_abs_sum M x init) m (fun r : fl => int_valued r (z + zsum (vext x) q)).
Proof. intros. eexists. split; [apply (abs_sum_run prec emax Hp He M m x f init); auto|]. apply fsum_int; auto. Qed.
Lemma zsum_two : forall n f, zsum (2 * n) f = zsum n (fun k => (f (2 * k)%nat + f (S (2 * k))%nat)%Z).
Proof. induction n; intros; auto. replace (2 * S n) with (S (S (2 * n))) by lia. cbn [zsum]. rewrite IHn. lia. Qed.
Lemma abs_sum_c_int : forall (m : mem O) x f (init : fl) (p q : nat -> Z) z, arithmetic M = false -> vec_holds m x f -> int_valued init z ->
  (forall i, i < vext x -> int_valued (ereal M (f i) : fl) (p i) /\ int_valued (eimag M (f i) : fl) (q i)) ->
  fits_in prec (Z.abs z + zsum (vext x) (fun i => Z.abs (p i) + Z.abs (q i)))%Z ->
  returns (vector_abs_sum M x init) m (fun r : fl => int_valued r (z + zsum (vext x) (fun i => Z.abs (p i) + Z.abs (q i)))%Z).
Proof.
  intros m x f init p q z HA Hx Hi Hf Hb. eexists. split; [apply (abs_sum_c_run prec emax Hp He M m x f init); auto|].
  set (h := fun k => if Nat.even k then Z.abs (p (Nat.div2 k)) else Z.abs (q (Nat.div2 k))).
  assert (E : zsum (vext x) (fun i => Z.abs (p i) + Z.abs (q i))%Z = zsum (2 * vext x) h).
  { assert (H1 : forall k, h (2 * k)%nat = Z.abs (p k)) by (intros; unfold h; rewrite even_dbl, Nat.div2_double; reflexivity).
    assert (H2 : forall k, h (S (2 * k)) = Z.abs (q k)) by (intros; unfold h; rewrite even_dbl1, Nat.div2_succ_double; reflexivity).
    rewrite zsum_two. generalize (vext x) as n. induction n as [|n IH]; auto. cbn [zsum]. rewrite IH, H1, H2. reflexivity. }
  rewrite E in *. apply fsum_int; auto.
  - intros k Hk. assert (D : Nat.div2 k < vext x) by (pose proof (Nat.div2_odd k); destruct (Nat.odd k); simpl Nat.b2n in *; lia).
    destruct (Hf _ D). unfold parts, h. destruct (Nat.even k); apply int_abs; auto.
  - intros k _. unfold h. destruct (Nat.even k); lia.
Qed.
Lemma lmax_int : forall n (s : fl) z (g : nat -> fl) q, int_valued s z -> (forall i, i < n -> int_valued (g i) (z + q i)) ->
  int_valued (lmax prec emax Hp He s n g) (z + zmax n q).
Proof.
  induction n as [|n IH]; intros s z g q Hs Hg; [simpl; rewrite Z.add_0_r; auto|].
  unfold lmax. rewrite seq_S, fold_left_app. cbn [fold_left Nat.add zmax]. rewrite <- Z.add_max_distr_l, Z.max_comm. apply max_int; [apply Hg; lia|].
  apply IH; auto.
Qed.
Lemma lines_int : forall n k (b : nat -> nat -> fl) init q z, int_valued init z -> (forall i j, i < n -> j < k -> int_valued (b i j) (q i j) /\ (0 <= q i j)%Z) ->
  (forall i, i < n -> fits_in prec (Z.abs z + zsum k (q i))) ->
  int_valued (if ((n =? 0) || (k =? 0))%nat then init else if ((n =? 1) && (k =? 1))%nat then fsum prec emax Hp He init 1 (fun _ => b 0 0)
    else lmax prec emax Hp He init n (fun i => fsum prec emax Hp He init k (b i))) (z + zmax n (fun i => zsum k (q i))).
Proof.
  intros n k b init q z Hi Hb Hf. destruct (Nat.eqb_spec n 0) as [->|Nn]; [simpl; rewrite Z.add_0_r; auto|]. cbn [orb].
  destruct (Nat.eqb_spec k 0) as [->|Nk].
  { replace (zmax n (fun i => zsum 0 (q i))) with 0%Z by (clear; induction n; simpl in *; lia). rewrite Z.add_0_r. auto. }
  destruct ((n =? 1) && (k =? 1))%nat eqn:E.
  - apply andb_prop in E. destruct E as [E1 E2]. apply Nat.eqb_eq in E1, E2. subst n k. destruct (Hb 0 0) as [B1 B2]; auto. specialize (Hf 0 Nat.lt_0_1).
    unfold fsum. cbn [seq fold_left zmax zsum] in *. rewrite Z.max_r by lia. apply int_add; auto. unfold fits_in in Hf. lia.
  - apply lmax_int; auto. intros i Hi'. apply fsum_int; auto; intros; apply Hb; auto.
Qed.
Lemma inf_norm_int : forall (m : mem O) A a (init : fl) q z, mat_holds m A a -> int_valued init z ->
  (forall i j, i < ext0 A -> j < ext1 A -> int_valued (emag M (a i j)) (q i j) /\ (0 <= q i j)%Z) ->
  (forall i, i < ext0 A -> fits_in prec (Z.abs z + zsum (ext1 A) (q i))) ->
  returns (matrix_inf_norm M A init) m (fun r : fl => int_valued r (z + zmax (ext0 A) (fun i => zsum (ext1 A) (q i)))).
Proof. intros. eexists. split; [apply (inf_norm_run prec emax Hp He M m A a init); auto|]. apply (lines_int (ext0 A) (ext1 A) (fun i j => emag M (a i j))); auto. Qed.
Lemma one_norm_int : forall (m : mem O) A a (init : fl) q z, mat_holds m A a -> int_valued init z ->
  (forall i j, i < ext0 A -> j < ext1 A -> int_valued (emag M (a i j)) (q i j) /\ (0 <= q i j)%Z) ->
  (forall j, j < ext1 A -> fits_in prec (Z.abs z + zsum (ext0 A) (fun i => q i j))) ->
  returns (matrix_one_norm M A init) m (fun r : fl => int_valued r (z + zmax (ext1 A) (fun j => zsum (ext0 A) (fun i => q i j)))).
Proof.
  intros. eexists. split; [apply (one_norm_run prec emax Hp He M m A a init); auto|].
  rewrite (orb_comm (ext0 A =? 0)%nat), (andb_comm (ext0 A =? 1)%nat).
  apply (lines_int (ext1 A) (ext0 A) (fun j i => emag M (a i j)) init (fun j i => q i j)); auto.
Qed.
End N.

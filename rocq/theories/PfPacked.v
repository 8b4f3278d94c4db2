(** Packed storage: the mapping, and what it means for views. *)
From Coq Require Import List Arith Lia Bool.
From Verif Require Import Mem Scalar View Spec LayoutG Packed SpecPacked.
Import ListNotations.
Set Implicit Arguments.

Lemma tri_num : forall j, exists q, j * (j + 1) = 2 * q.
Proof. induction j as [|j [q IH]]; [exists 0; reflexivity|exists (q + j + 1); lia]. Qed.
Lemma tri_half : forall j, 2 * (j * (j + 1) / 2) = j * (j + 1).
Proof. intros j. destruct (tri_num j) as [q H]. rewrite H. rewrite (Nat.mul_comm 2 q), Nat.div_mul; lia. Qed.
Lemma tri_half_S : forall j, S j * (S j + 1) / 2 = j * (j + 1) / 2 + (j + 1).
Proof. intros j. pose proof (tri_half j). pose proof (tri_half (S j)). nia. Qed.

Section Flat.
Context {A : Type} (g : nat -> list A).
Notation start l := (length (flat_map g (seq 0 l))).
Lemma flat_S : forall n, flat_map g (seq 0 (S n)) = flat_map g (seq 0 n) ++ g n.
Proof. intros n. rewrite seq_S, flat_map_app. simpl. rewrite app_nil_r. reflexivity. Qed.
Lemma flat_nth : forall n l r, l < n -> r < length (g l) -> nth_error (flat_map g (seq 0 n)) (start l + r) = nth_error (g l) r.
Proof.
  intros n l r Hl Hr. replace n with (l + S (n - l - 1)) by lia. rewrite seq_app, flat_map_app.
  rewrite nth_error_app2 by lia. simpl. rewrite nth_error_app1 by lia. f_equal. lia.
Qed.
Lemma flat_pos : forall n k, k < start n -> exists l r, l < n /\ r < length (g l) /\ k = start l + r.
Proof.
  induction n as [|n IH]; intros k Hk; [simpl in Hk; lia|].
  rewrite flat_S, app_length in Hk. destruct (le_lt_dec (start n) k) as [L|L].
  - exists n, (k - start n). lia.
  - destruct (IH k L) as (l & r & H1 & H2 & H3). exists l, r. lia.
Qed.
End Flat.

Section Packed.
Variables (t : triangle) (o : order) (n : nat).
Notation es := (packed_elems t o n).
Let g l := map (fun k => match o with ColMajor => (k, l) | RowMajor => (l, k) end) (packed_line t o n l).
Definition short : bool := match o, t with ColMajor, Upper | RowMajor, Lower => true | _, _ => false end.
Lemma line_length : forall l, length (g l) = if short then l + 1 else n - l.
Proof. intros l. unfold g, packed_line, short. rewrite map_length. destruct o, t; rewrite seq_length; reflexivity. Qed.
Lemma line_start : forall l, l <= n ->
  2 * length (flat_map g (seq 0 l)) = if short then l * (l + 1) else 2 * n * l - l * (l - 1).
Proof.
  induction l as [|l IH]; intros Hl; [simpl; destruct short; lia|].
  rewrite flat_S, app_length, line_length. specialize (IH ltac:(lia)). destruct short; nia.
Qed.
Lemma elems_length : 2 * length es = n * (n + 1).
Proof. pose proof (line_start (le_n n)) as H. unfold packed_elems. fold g. destruct short; nia. Qed.
Lemma elems_len : length es = n * (n + 1) / 2.
Proof. pose proof elems_length. pose proof (tri_half n). lia. Qed.
Lemma in_start : forall i j, i < n -> j < n -> in_tri t i j ->
  let l := match o with ColMajor => j | RowMajor => i end in let k := match o with ColMajor => i | RowMajor => j end in
  l < n /\ (if short then k else k - l) < length (g l) /\
  packed_in t o n i j = length (flat_map g (seq 0 l)) + (if short then k else k - l) /\
  nth_error (g l) (if short then k else k - l) = Some (i, j).
Proof.
  intros i j Hi Hj Ht l k. rewrite line_length.
  assert (Hl : l < n) by (unfold l; destruct o; auto). split; auto.
  pose proof (line_start (Nat.lt_le_incl _ _ Hl)) as S. pose proof (tri_half i). pose proof (tri_half j).
  unfold short in *. unfold g, packed_line, packed_in, l, k in *. destruct o, t; simpl in Ht;
    (split; [lia|split; [nia|]]).
  - rewrite nth_error_map, nth_error_nth' with (d := 0) by (rewrite seq_length; lia). rewrite seq_nth by lia. simpl. f_equal. f_equal. lia.
  - rewrite nth_error_map, nth_error_nth' with (d := 0) by (rewrite seq_length; lia). rewrite seq_nth by lia. reflexivity.
  - rewrite nth_error_map, nth_error_nth' with (d := 0) by (rewrite seq_length; lia). rewrite seq_nth by lia. reflexivity.
  - rewrite nth_error_map, nth_error_nth' with (d := 0) by (rewrite seq_length; lia). rewrite seq_nth by lia. simpl. f_equal. f_equal. lia.
Qed.
Lemma off_tri : forall i j, in_tri t i j -> packed_off t o n i j = packed_in t o n i j.
Proof. intros i j H. unfold packed_off. destruct t; simpl in H; rewrite (proj2 (Nat.leb_le _ _)) by lia; reflexivity. Qed.
Lemma off_nth : forall i j, i < n -> j < n -> in_tri t i j -> nth_error es (packed_off t o n i j) = Some (i, j).
Proof.
  intros i j Hi Hj Ht. rewrite off_tri by auto. destruct (in_start Hi Hj Ht) as (H1 & H2 & H3 & H4).
  rewrite H3, <- H4. apply flat_nth; auto.
Qed.
Lemma off_sym : forall i j, packed_off t o n i j = packed_off t o n j i.
Proof.
  intros i j. destruct (Nat.eq_dec i j) as [->|N]; auto. unfold packed_off.
  destruct t; destruct (Nat.leb_spec i j), (Nat.leb_spec j i); auto; lia.
Qed.
Lemma mirror : forall i j, in_tri t i j \/ in_tri t j i.
Proof. intros. destruct t; simpl; lia. Qed.
Lemma off_bound : forall i j, i < n -> j < n -> packed_off t o n i j < n * (n + 1) / 2.
Proof.
  intros i j Hi Hj. rewrite <- elems_len. apply nth_error_Some.
  destruct (mirror i j) as [H|H]; [|rewrite off_sym]; rewrite off_nth by auto; discriminate.
Qed.
Lemma off_inj : forall i j i' j', i < n -> j < n -> i' < n -> j' < n -> in_tri t i j -> in_tri t i' j' ->
  packed_off t o n i j = packed_off t o n i' j' -> i = i' /\ j = j'.
Proof.
  intros i j i' j' Hi Hj Hi' Hj' H1 H2 E. pose proof (off_nth Hi Hj H1) as N1. pose proof (off_nth Hi' Hj' H2) as N2.
  rewrite E in N1. rewrite N1 in N2. inversion N2; auto.
Qed.
Lemma off_surj : forall k, k < n * (n + 1) / 2 -> exists i j, i < n /\ j < n /\ in_tri t i j /\ k = packed_off t o n i j.
Proof.
  intros k Hk. rewrite <- elems_len in Hk. destruct (flat_pos _ _ Hk) as (l & r & Hl & Hr & E).
  change (r < length (g l)) in Hr. change (k = length (flat_map g (seq 0 l)) + r) in E. rewrite line_length in Hr. set (q := if short then r else l + r).
  assert (Hq : (match o with ColMajor => q | RowMajor => l end) < n /\ (match o with ColMajor => l | RowMajor => q end) < n /\
               in_tri t (match o with ColMajor => q | RowMajor => l end) (match o with ColMajor => l | RowMajor => q end)).
  { unfold q, short in *. destruct o, t; simpl in *; lia. }
  destruct Hq as (Q1 & Q2 & Q3). exists (match o with ColMajor => q | RowMajor => l end), (match o with ColMajor => l | RowMajor => q end).
  repeat split; auto. rewrite off_tri by auto. destruct (in_start Q1 Q2 Q3) as (_ & _ & H & _). rewrite H.
  rewrite E. unfold q, short. destruct o, t; simpl; lia.
Qed.
Lemma nth_off : forall k i j, nth_error es k = Some (i, j) -> i < n /\ j < n /\ in_tri t i j /\ k = packed_off t o n i j.
Proof.
  intros k i j H. assert (k < n * (n + 1) / 2) as Hk by (rewrite <- elems_len; apply nth_error_Some; rewrite H; discriminate).
  destruct (off_surj Hk) as (i' & j' & H1 & H2 & H3 & ->). rewrite off_nth in H by auto. inversion H; subst; auto.
Qed.
End Packed.

Lemma off_transposed : forall t o n i j, packed_off (opposite_triangle t) (opposite o) n j i = packed_off t o n i j.
Proof. intros. unfold packed_off, packed_in. destruct t, o; reflexivity. Qed.

Section Views.
Context {O : ops}.
Notation pm base n t o := (@packed_mat O base n t o ADefault).
Lemma packed_holds : forall (m : mem O) base n t o a, array_holds m base (packed_elems t o n) a -> mat_holds_on m (pm base n t o) (in_tri t) a.
Proof.
  intros m base n t o a H i j Hi Hj Ht. simpl in Hi, Hj. exists (a i j). split; auto. apply H. simpl. apply off_nth; auto.
Qed.
Lemma holds_packed : forall (m : mem O) base n t o a, mat_holds_on m (pm base n t o) (in_tri t) a -> array_holds m base (packed_elems t o n) a.
Proof.
  intros m base n t o a H k i j Hk. destruct (@nth_off t o n _ _ _ Hk) as (H1 & H2 & H3 & ->).
  destruct (H i j H1 H2 H3) as (v & Hv & <-). exact Hv.
Qed.
Lemma packed_cells : forall base n t o c, mcells_on (pm base n t o) (in_tri t) c <-> cells_from base (n * (n + 1) / 2) c.
Proof.
  intros base n t o c. split.
  - intros (i & j & Hi & Hj & _ & ->). pose proof (@off_bound t o n i j Hi Hj) as H. revert H. generalize (n * (n + 1) / 2).
    intros k H. unfold cells_from. change (base <= base + packed_off t o n i j < base + k). lia.
  - intros [H1 H2]. destruct (@off_surj t o n (c - base) ltac:(lia)) as (i & j & Hi & Hj & Ht & E).
    exists i, j. repeat split; auto. change (c = base + packed_off t o n i j). lia.
Qed.
Lemma packed_writable : forall base n t o, mwritable_on (pm base n t o) (in_tri t).
Proof.
  intros base n t o. split; auto. intros i j i' j' Hi Hj Hi' Hj' H1 H2 E. change (base + packed_off t o n i j = base + packed_off t o n i' j') in E.
  apply (@off_inj t o n); auto. lia.
Qed.
Lemma packed_stored : forall (m : mem O) base n t d o a, array_holds m base (packed_elems t o n) a -> mat_holds_on m (pm base n t o) (stored t d) a.
Proof. intros m base n t d o a H i j Hi Hj Ht. apply (@packed_holds m base n t o a H); auto. apply Ht. Qed.
Lemma packed_stored_cells : forall base n t d o c, mcells_on (pm base n t o) (stored t d) c -> cells_from base (n * (n + 1) / 2) c.
Proof. intros base n t d o c (i & j & Hi & Hj & Ht & E). apply (packed_cells base n t o). exists i, j. repeat split; auto. apply Ht. Qed.
(** Through the tag of the other triangle the transpose is seen. *)
Lemma packed_other : forall (m : mem O) base n t o a, array_holds m base (packed_elems t o n) a ->
  mat_holds_on m (pm base n t o) (in_tri (opposite_triangle t)) (fun i j => a j i).
Proof.
  intros m base n t o a H i j Hi Hj Ht. exists (a j i). split; auto. change (m (base + packed_off t o n i j) = Some (a j i)).
  rewrite off_sym. apply H. apply off_nth; auto. destruct t; exact Ht.
Qed.
Lemma packed_other_cells : forall base n t o c, mcells_on (pm base n t o) (in_tri (opposite_triangle t)) c -> cells_from base (n * (n + 1) / 2) c.
Proof.
  intros base n t o c (i & j & Hi & Hj & Ht & E). apply (packed_cells base n t o). exists j, i. repeat split; auto.
  - destruct t; exact Ht.
  - rewrite E. change (base + packed_off t o n i j = base + packed_off t o n j i). rewrite off_sym. reflexivity.
Qed.
Lemma sym_other : forall t (a : nat -> nat -> O) i j, sym_of (opposite_triangle t) (fun i j => a j i) i j = sym_of t a i j.
Proof.
  intros. unfold sym_of, in_tri_b. destruct t; simpl; destruct (Nat.leb_spec i j), (Nat.leb_spec j i); auto; try lia.
  all: replace i with j by lia; reflexivity.
Qed.
Lemma herm_other : forall t (a : nat -> nat -> O) i j, herm_of (opposite_triangle t) (fun i j => a j i) i j = herm_of t a j i.
Proof.
  intros. unfold herm_of, in_tri_b. rewrite (Nat.eqb_sym j i). destruct (Nat.eqb_spec i j) as [->|N]; auto.
  destruct t; simpl; destruct (Nat.leb_spec i j), (Nat.leb_spec j i); auto; lia.
Qed.
End Views.

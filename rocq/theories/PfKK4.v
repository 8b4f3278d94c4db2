(** Proofs for the Kokkos triangular matrix-matrix products. *)
From Coq Require Import List Arith Lia Bool Relations.
From Verif Require Import Mem Scalar View Spec Wp Loops Sums Blas2 PfBlas1 PfBlas2 PfTrmv PfBlas2b PfRank PfBlas3 Par PfPar KK SpecK PfKK PfKK2 PfKK3.
Import ListNotations.
Set Implicit Arguments.
Local Open Scope sc_scope.
Local Open Scope prog_scope.

Section Trmm.
Context {O : ops}.

Lemma sum_window : forall lo len n (h : nat -> O), add_laws O -> lo + len <= n ->
  (forall k, k < n -> k < lo \/ lo + len <= k -> h k = zero) -> bigsum n h = sum_from zero lo len h.
Proof.
  intros lo len n h L Hl Hz. unfold bigsum.
  replace n with (lo + (len + (n - (lo + len))))%nat by lia.
  etransitivity; [apply sum_from_app|]. etransitivity; [apply sum_from_app|].
  rewrite (@sum_zeros _ L _ (0 + lo + len)%nat). 2: { intros; apply Hz; lia. }
  rewrite (@sum_zeros _ L zero 0 lo). 2: { intros; apply Hz; lia. }
  reflexivity.
Qed.

Definition kk_tri_val_r (t : triangle) (d : diagonal) n (f : nat -> O) (a : nat -> nat -> O) (j : nat) : O :=
   match d with
    | Explicit => match t with Lower => sum_from zero j (n - j) (fun k => f k * a k j)
                             | Upper => sum_from zero 0 (j + 1) (fun k => f k * a k j) end
    | ImplicitUnit => match t with Lower => sum_from zero (j + 1) (n - (j + 1)) (fun k => f k * a k j)
                             | Upper => sum_from zero 0 j (fun k => f k * a k j) end + f j
    end.
Lemma kk_tri_val_r_ok : forall t d n f a j, ring_laws O -> j < n ->
  kk_tri_val_r t d n f a j = bigsum n (fun k => f k * tri_of t d a k j).
Proof.
  intros t d n f a j L Hj. pose proof (ring_add L) as LA. unfold kk_tri_val_r.
  assert (Z : forall k, ~ in_tri t k j -> f k * tri_of t d a k j = zero).
  { intros k Hk. unfold tri_of. destruct t; simpl in *; bdec; apply (mul_0_r L). }
  assert (D : f j * tri_of t ImplicitUnit a j j = f j).
  { unfold tri_of. bdec. apply (mul_1_r L). }
  assert (V : forall k, k <> j -> in_tri t k j -> f k * tri_of t d a k j = f k * a k j).
  { intros k Hk Ht. unfold tri_of. destruct t; simpl in *; bdec; auto. }
  destruct d, t.
  - rewrite (@sum_window j (n - j)); auto; try lia.
    + apply sum_from_ext. intros k Hk. destruct (Nat.eq_dec k j) as [->|]; [unfold tri_of; bdec; auto|].
      symmetry; apply V; simpl; lia.
    + intros k Hk Hw. apply Z; simpl; lia.
  - rewrite (@sum_window 0 (j + 1)); auto; try lia.
    + apply sum_from_ext. intros k Hk. destruct (Nat.eq_dec k j) as [->|]; [unfold tri_of; bdec; auto|].
      symmetry; apply V; simpl; lia.
    + intros k Hk Hw. apply Z; simpl; lia.
  - rewrite (@sum_window j (n - j)); auto; try lia.
    + replace (n - j)%nat with (S (n - (j + 1))) by lia. rewrite sum_from_head, D, (add_0_l LA).
      rewrite (sum_from_init LA (f j)), (add_comm LA). f_equal. replace (S j) with (j + 1)%nat by lia.
      apply sum_from_ext. intros k Hk. symmetry; apply V; simpl; lia.
    + intros k Hk Hw. apply Z; simpl; lia.
  - rewrite (@sum_window 0 (j + 1)); auto; try lia.
    + replace (j + 1)%nat with (S j) by lia. rewrite sum_from_S, Nat.add_0_l, D. f_equal.
      apply sum_from_ext. intros k Hk. symmetry; apply V; simpl; lia.
    + intros k Hk Hw. apply Z; simpl; lia.
Qed.

(** Overwrite a part of a matrix *)
Lemma mst_patch : forall (m0 m m' : mem O) C (P : nat -> nat -> Prop) (pb : nat -> nat -> bool) g h,
  (forall i j, P i j <-> pb i j = true) -> mwritable C ->
  mst m0 m C all2 h -> mst m m' C P g -> mst m0 m' C all2 (fun i j => if pb i j then g i j else h i j).
Proof.
  intros m0 m m' C P pb g h HP [Hd Hu] [Hh Hc] [Hg Hc']. split.
  - intros i j Hi Hj _. destruct (pb i j) eqn:E.
    + apply Hg; auto. apply HP; auto.
    + destruct (Hh i j Hi Hj I) as (v & Hv & Ev). exists v. split; auto. rewrite Hc'; auto.
      intros (i' & j' & Hi' & Hj' & HP' & E'). destruct (Hu i j i' j') as [-> ->]; auto; try exact I.
      apply HP in HP'. congruence.
  - eapply changes_only_trans; [exact Hc|]. eapply changes_only_mono; [|exact Hc'].
    intros b (i & j & Hi & Hj & _ & ->). apply mcells_in_all; auto.
Qed.

(** A task that computes [v] and stores it in C(i,j). *)
Definition stores (R : cellset) (C : mat O) (i j : nat) (p : prog O unit) (m : mem O) (v : O) : Prop :=
  touches R (fun b => b = maddr C i j) p /\ succeeds p m (fun _ m' => m' (maddr C i j) = Some v).
Lemma stores_bind : forall R C i j (p : prog O O) (f : O -> prog O unit) m v w,
  reads R p m v -> (forall x, touches R (fun b => b = maddr C i j) (f x)) -> stores R C i j (f v) m w ->
  stores R C i j (bind p f) m w.
Proof.
  intros R C i j p f m v w [H1 H2] Hf [H3 H4]. split.
  - apply touches_bind; auto. apply touches_mono with (R := R) (W := fun _ => False); auto. intros ? [].
  - apply wp_bind. eapply wp_conseq; [exact H2|]. intros s m' [-> ->]. exact H4.
Qed.
Lemma stores_mset : forall R C i j m v, mwritable C -> allocated m (mcells C) -> i < ext0 C -> j < ext1 C ->
  stores R C i j (mset C i j v) m v.
Proof.
  intros R C i j m v Hw Hal Hi Hj. pose proof (alloc_mat_holds Hal) as H0. split; [apply touches_mset; auto|].
  eapply wp_mset; [exact Hw|apply mst_init; exact H0|auto|auto|exact I|].
  intros m' Hm'. rewrite (mst_cell (proj1 Hw) Hm' Hi Hj I), fset2_same. auto.
Qed.

(** One region: row i (own = column index), or column j (own = row index). *)
Lemma region_line : forall (C : mat O) (P : nat -> nat -> Prop) (own : nat -> nat -> nat) (ri ci : nat -> nat) n (v : nat -> O)
    (body : nat -> prog O unit) (R : nat -> cellset) (m : mem O) (Q : mem O -> Prop),
  mwritable C ->
  (forall i j, i < ext0 C -> j < ext1 C -> P i j -> own i j < n /\ ri (own i j) = i /\ ci (own i j) = j) ->
  (forall s, s < n -> ri s < ext0 C /\ ci s < ext1 C /\ P (ri s) (ci s) /\ own (ri s) (ci s) = s) ->
  (forall s, s < n -> stores (R s) C (ri s) (ci s) (body s) m (v s)) ->
  (forall s i j, s < n -> i < ext0 C -> j < ext1 C -> P i j -> own i j <> s -> ~ R s (maddr C i j)) ->
  (forall m', mst m m' C P (fun i j => v (own i j)) -> Q m') ->
  region_ok (tasks n body) m Q.
Proof.
  intros C P own ri ci n v body R m Q Hw Hown Hri Hb HR HQ.
  apply region_mat with (C := C) (P := P) (own := own) (g := fun i j => v (own i j)) (R := R); auto.
  - destruct Hw as [Hd Hu]. split; auto. intros; apply Hu; auto; exact I.
  - intros i j Hi Hj HP. apply Hown; auto.
  - intros s Hs. destruct (Hri s Hs) as (Hr1 & Hr2 & Hr3 & Hr4).
    eapply touches_mono; [| |apply Hb; auto]; auto. intros b ->. exists (ri s), (ci s). auto 6.
  - intros s Hs. destruct (Hri s Hs) as (Hr1 & Hr2 & Hr3 & Hr4).
    eapply wp_conseq; [apply Hb; auto|]. intros [] m' Hm'.
    intros i j Hi Hj [HP Ho]. destruct (Hown i j Hi Hj HP) as (_ & E1 & E2). rewrite Ho in E1, E2. subst i j.
    exists (v s). rewrite Hm', (proj1 Hw), Ho. auto.
Qed.

(** The value computed by one task *)
Lemma trmm_left_stores : forall (m : mem O) (Av Bv Cv : mat O) t d n a b i j R,
  mwritable Cv -> allocated m (mcells Cv) -> i < ext0 Cv -> j < ext1 Cv -> i < n ->
  (forall k, k < n -> stored t d i k -> touches R (fun _ => False) (mget Av i k) /\
     forall P : O -> mem O -> Prop, P (a i k) m -> succeeds (mget Av i k) m P) ->
  (forall k, k < n -> in_tri t i k -> touches R (fun _ => False) (mget Bv k j) /\
     forall P : O -> mem O -> Prop, P (b k) m -> succeeds (mget Bv k j) m P) ->
  stores R Cv i j (let! s := kk_sum match t with Lower => 0 | Upper => if is_explicit d then i else (i + 1)%nat end
                            match t with Lower => if is_explicit d then (i + 1)%nat else i | Upper => n end
                       (fun k => let! a := mget Av i k in let! b := mget Bv k j in Ret (a * b)) in
           let! s' := (if is_explicit d then Ret s else let! b := mget Bv i j in Ret (s + b)) in mset Cv i j s') m
    (kk_tri_val t d n a b i).
Proof.
  intros m Av Bv Cv t d n a b i j R Hw Hal HiC HjC Hi HA HB.
  assert (Hs : forall lo hi len, hi = (lo + len)%nat -> hi <= n -> (forall k, lo <= k < hi -> stored t d i k) ->
    reads R (kk_sum lo hi (fun k => let! a := mget Av i k in let! b := mget Bv k j in Ret (a * b))) m
      (sum_from zero lo len (fun k => a i k * b k))).
  { intros lo hi len Hl Hh Hst. apply reads_fold; auto; intros k s Hk.
    - apply touches_bind; [|intros; exact I]. apply touches_bind; [apply HA; auto; lia|intros w].
      apply touches_bind; [|intros; exact I]. apply HB; [lia|]. apply Hst; auto.
    - apply wp_bind. apply wp_bind. apply HA; [lia|auto|]. apply wp_bind. apply HB; [lia|apply Hst; auto|].
      apply wp_ret. apply wp_ret. auto. }
  assert (Hd : forall s, reads R (let! b := mget Bv i j in Ret (s + b)) m (s + b i)).
  { intros s. split; [apply touches_bind; [apply HB|intros; exact I]|]; auto.
    - destruct t; simpl; lia.
    - apply wp_bind. apply HB; auto; [destruct t; simpl; lia|]. apply wp_ret; auto. }
  assert (He : forall s, reads R (Ret s) m s) by (intros s; split; [exact I|apply wp_ret; auto]).
  assert (Hm : forall s, stores R Cv i j (mset Cv i j s) m s) by (intros; apply stores_mset; auto).
  unfold kk_tri_val. destruct d, t; cbn [is_explicit].
  - apply stores_bind with (v := sum_from zero 0 (i + 1) (fun k => a i k * b k));
      [apply Hs; try lia; intros k Hk; split; [simpl; lia|congruence]|intros; apply Hm|apply Hm].
  - apply stores_bind with (v := sum_from zero i (n - i) (fun k => a i k * b k));
      [apply Hs; try lia; intros k Hk; split; [simpl; lia|congruence]|intros; apply Hm|apply Hm].
  - apply stores_bind with (v := sum_from zero 0 i (fun k => a i k * b k));
      [apply Hs; try lia; intros k Hk; split; [simpl; lia|lia]|intros; eapply stores_bind; [apply Hd|intros; apply Hm|apply Hm]|eapply stores_bind; [apply Hd|intros; apply Hm|apply Hm]].
  - apply stores_bind with (v := sum_from zero (i + 1) (n - (i + 1)) (fun k => a i k * b k));
      [apply Hs; try lia; intros k Hk; split; [simpl; lia|lia]|intros; eapply stores_bind; [apply Hd|intros; apply Hm|apply Hm]|eapply stores_bind; [apply Hd|intros; apply Hm|apply Hm]].
Qed.
Lemma trmm_right_stores : forall (m : mem O) (Av Bv Cv : mat O) t d n a b i j R,
  mwritable Cv -> allocated m (mcells Cv) -> i < ext0 Cv -> j < ext1 Cv -> j < n ->
  (forall k, k < n -> stored t d k j -> touches R (fun _ => False) (mget Av k j) /\
     forall P : O -> mem O -> Prop, P (a k j) m -> succeeds (mget Av k j) m P) ->
  (forall k, k < n -> in_tri t k j -> touches R (fun _ => False) (mget Bv i k) /\
     forall P : O -> mem O -> Prop, P (b k) m -> succeeds (mget Bv i k) m P) ->
  stores R Cv i j (let! s := kk_sum match t with Lower => if is_explicit d then j else (j + 1)%nat | Upper => 0 end
                            match t with Lower => n | Upper => if is_explicit d then (j + 1)%nat else j end
                       (fun k => let! b := mget Bv i k in let! a := mget Av k j in Ret (b * a)) in
           let! s' := (if is_explicit d then Ret s else let! b := mget Bv i j in Ret (s + b)) in mset Cv i j s') m
    (kk_tri_val_r t d n b a j).
Proof.
  intros m Av Bv Cv t d n a b i j R Hw Hal HiC HjC Hj HA HB.
  assert (Hs : forall lo hi len, hi = (lo + len)%nat -> hi <= n -> (forall k, lo <= k < hi -> stored t d k j) ->
    reads R (kk_sum lo hi (fun k => let! b := mget Bv i k in let! a := mget Av k j in Ret (b * a))) m
      (sum_from zero lo len (fun k => b k * a k j))).
  { intros lo hi len Hl Hh Hst. apply reads_fold; auto; intros k s Hk.
    - apply touches_bind; [|intros; exact I]. apply touches_bind; [apply HB; [lia|apply Hst; auto]|intros w].
      apply touches_bind; [|intros; exact I]. apply HA; [lia|]. apply Hst; auto.
    - apply wp_bind. apply wp_bind. apply HB; [lia|apply Hst; auto|]. apply wp_bind. apply HA; [lia|auto|].
      apply wp_ret. apply wp_ret. auto. }
  assert (Hd : forall s, reads R (let! b := mget Bv i j in Ret (s + b)) m (s + b j)).
  { intros s. split; [apply touches_bind; [apply HB|intros; exact I]|]; auto.
    - destruct t; simpl; lia.
    - apply wp_bind. apply HB; auto; [destruct t; simpl; lia|]. apply wp_ret; auto. }
  assert (He : forall s, reads R (Ret s) m s) by (intros s; split; [exact I|apply wp_ret; auto]).
  assert (Hm : forall s, stores R Cv i j (mset Cv i j s) m s) by (intros; apply stores_mset; auto).
  unfold kk_tri_val_r. destruct d, t; cbn [is_explicit].
  - apply stores_bind with (v := sum_from zero j (n - j) (fun k => b k * a k j));
      [apply Hs; try lia; intros k Hk; split; [simpl; lia|congruence]|intros; apply Hm|apply Hm].
  - apply stores_bind with (v := sum_from zero 0 (j + 1) (fun k => b k * a k j));
      [apply Hs; try lia; intros k Hk; split; [simpl; lia|congruence]|intros; apply Hm|apply Hm].
  - apply stores_bind with (v := sum_from zero (j + 1) (n - (j + 1)) (fun k => b k * a k j));
      [apply Hs; try lia; intros k Hk; split; [simpl; lia|lia]|intros; eapply stores_bind; [apply Hd|intros; apply Hm|apply Hm]|eapply stores_bind; [apply Hd|intros; apply Hm|apply Hm]].
  - apply stores_bind with (v := sum_from zero 0 j (fun k => b k * a k j));
      [apply Hs; try lia; intros k Hk; split; [simpl; lia|lia]|intros; eapply stores_bind; [apply Hd|intros; apply Hm|apply Hm]|eapply stores_bind; [apply Hd|intros; apply Hm|apply Hm]].
Qed.

Lemma alloc_mst : forall (m m' : mem O) C g, mst m m' C all2 g -> allocated m' (mcells C).
Proof. intros m m' C g [H _] b (i & j & Hi & Hj & _ & ->). destruct (H i j Hi Hj I) as (v & Hv & _). congruence. Qed.

Lemma B_other : forall (B C : mat O) i j i' j', mwritable C -> ext0 B = ext0 C -> ext1 B = ext1 C ->
  disjoint_or_aligned_m B C -> i < ext0 C -> j < ext1 C -> i' < ext0 C -> j' < ext1 C ->
  maddr C i j = maddr B i' j' -> i = i' /\ j = j'.
Proof.
  intros B C i j i' j' [Hd Hu] E0 E1 [H|H] Hi Hj Hi' Hj' E.
  - exfalso. apply (H (maddr C i j)); [rewrite E; apply mcells_in_all; lia|apply mcells_in_all; auto].
  - rewrite H in E by auto. apply Hu; auto; exact I.
Qed.

Lemma kk_trmm_left_mst : forall (m : mem O) t d A B C a b (Q : mem O -> Prop),
  ext0 A = ext1 A -> ext0 C = ext0 A -> ext1 A = ext0 B -> ext1 C = ext1 B ->
  mat_holds_on m A (stored t d) a -> mat_holds m B b -> mwritable C -> allocated m (mcells C) ->
  disjoint (mcells_on A (stored t d)) (mcells C) -> disjoint_or_aligned_m B C ->
  (forall m', mst m m' C all2 (fun i j => kk_tri_val t d (ext0 C) a (fun k => b k j) i) -> Q m') ->
  par_succeeds (kk_trmm_left t d A B C) m Q.
Proof.
  intros m t d A B C a b Q Hsq H1 H2 H3 HA HB Hw Hal HdA HdB HQ.
  pose proof (alloc_mat_holds Hal) as H0.
  set (res := fun i j => kk_tri_val t d (ext0 C) a (fun k => b k j) i).
  set (done := fun ii r => match t with Lower => ext0 C <=? r + ii | Upper => r <? ii end).
  unfold kk_trmm_left.
  apply par_for_ok with (Inv := fun ii m' => mst m m' C all2 (fun r c => if done ii r then res r c else contents_m m C r c)).
  - eapply mst_ext; [|apply mst_init; exact H0]. intros i j Hi Hj _. unfold done. destruct t; bdec; auto.
  - intros ii m1 Hii Hst. set (i := match t with Lower => (ext0 C - 1 - ii)%nat | Upper => ii end).
    assert (Hi : i < ext0 C) by (unfold i; destruct t; lia).
    assert (Hrem : forall k, k < ext0 C -> in_tri t i k -> done ii k = false).
    { intros k Hk Ht. unfold done, i in *. destruct t; simpl in Ht; bdec; auto. }
    assert (HmA : mat_holds_on m1 A (stored t d) a) by (eapply mat_holds_frame; [exact HA|apply Hst|exact HdA]).
    cbn [par_succeeds].
    apply region_line with (C := C) (P := fun r _ => r = i) (own := fun _ c => c) (ri := fun _ => i) (ci := fun s => s)
      (v := fun c => res i c) (R := fun s b => mcells_on A (stored t d) b \/ exists k, k < ext0 C /\ b = maddr B k s); auto.
    + intros j Hj. apply trmm_left_stores; auto.
      * eapply alloc_mst; eauto.
      * intros k Hk Hs. split.
        -- apply touches_mget. intros. left. apply mcells_in; auto; lia.
        -- intros P HP. eapply wp_mget; [exact HmA|lia|lia|auto|auto].
      * intros k Hk Hs. split.
        -- apply touches_mget. intros. right. eauto.
        -- intros P HP. eapply wp_mget_alias with (m0 := m) (A := B) (C := C) (c0 := contents_m m C); eauto; try lia.
           cbv beta. rewrite Hrem; auto.
    + intros s r c Hs Hr Hc -> Hne [H|(k & Hk & E)].
      * eapply HdA; eauto. apply mcells_in_all; auto.
      * destruct (@B_other B C i c k s) as [_ E']; auto; lia.
    + intros m2 H2'. eapply mst_ext; [|eapply mst_patch with (pb := fun r _ => r =? i); [|exact Hw|exact Hst|exact H2']].
      * intros r c Hr Hc _. cbv beta. unfold done, i in *. destruct (Nat.eqb_spec r (match t with Lower => (ext0 C - 1 - ii)%nat | Upper => ii end)) as [->|Hne].
        -- destruct t; bdec; auto.
        -- destruct t.
           ++ destruct (Nat.leb_spec (ext0 C) (r + ii)); bdec; auto.
           ++ destruct (Nat.ltb_spec r ii); bdec; auto.
      * intros r c. symmetry. apply Nat.eqb_eq.
  - intros m' Hm'. apply HQ. eapply mst_ext; [|exact Hm']. intros i j Hi Hj _. cbv beta. unfold done. destruct t; bdec; auto.
Qed.

Lemma kk_trmm_right_mst : forall (m : mem O) t d A B C a b (Q : mem O -> Prop),
  ext0 A = ext1 A -> ext0 C = ext0 B -> ext1 B = ext0 A -> ext1 C = ext1 A ->
  mat_holds_on m A (stored t d) a -> mat_holds m B b -> mwritable C -> allocated m (mcells C) ->
  disjoint (mcells_on A (stored t d)) (mcells C) -> disjoint_or_aligned_m B C ->
  (forall m', mst m m' C all2 (fun i j => kk_tri_val_r t d (ext1 C) (fun k => b i k) a j) -> Q m') ->
  par_succeeds (kk_trmm_right t d A B C) m Q.
Proof.
  intros m t d A B C a b Q Hsq H1 H2 H3 HA HB Hw Hal HdA HdB HQ.
  pose proof (alloc_mat_holds Hal) as H0.
  set (res := fun i j => kk_tri_val_r t d (ext1 C) (fun k => b i k) a j).
  set (done := fun jj c => match t with Upper => ext1 C <=? c + jj | Lower => c <? jj end).
  unfold kk_trmm_right.
  apply par_for_ok with (Inv := fun jj m' => mst m m' C all2 (fun r c => if done jj c then res r c else contents_m m C r c)).
  - eapply mst_ext; [|apply mst_init; exact H0]. intros i j Hi Hj _. unfold done. destruct t; bdec; auto.
  - intros jj m1 Hjj Hst. set (j := match t with Lower => jj | Upper => (ext1 C - 1 - jj)%nat end).
    assert (Hj : j < ext1 C) by (unfold j; destruct t; lia).
    assert (Hrem : forall k, k < ext1 C -> in_tri t k j -> done jj k = false).
    { intros k Hk Ht. unfold done, j in *. destruct t; simpl in Ht; bdec; auto. }
    assert (HmA : mat_holds_on m1 A (stored t d) a) by (eapply mat_holds_frame; [exact HA|apply Hst|exact HdA]).
    cbn [par_succeeds].
    apply region_line with (C := C) (P := fun _ c => c = j) (own := fun r _ => r) (ri := fun s => s) (ci := fun _ => j)
      (v := fun r => res r j) (R := fun s b => mcells_on A (stored t d) b \/ exists k, k < ext1 C /\ b = maddr B s k); auto.
    + intros i Hi. apply trmm_right_stores; auto.
      * eapply alloc_mst; eauto.
      * intros k Hk Hs. split.
        -- apply touches_mget. intros. left. apply mcells_in; auto; lia.
        -- intros P HP. eapply wp_mget; [exact HmA|lia|lia|auto|auto].
      * intros k Hk Hs. split.
        -- apply touches_mget. intros. right. eauto.
        -- intros P HP. eapply wp_mget_alias with (m0 := m) (A := B) (C := C) (c0 := contents_m m C); eauto; try lia.
           cbv beta. rewrite Hrem; auto.
    + intros s r c Hs Hr Hc -> Hne [H|(k & Hk & E)].
      * eapply HdA; eauto. apply mcells_in_all; auto.
      * destruct (@B_other B C r j s k) as [E' _]; auto; lia.
    + intros m2 H2'. eapply mst_ext; [|eapply mst_patch with (pb := fun _ c => c =? j); [|exact Hw|exact Hst|exact H2']].
      * intros r c Hr Hc _. cbv beta. unfold done, j in *. destruct (Nat.eqb_spec c (match t with Upper => (ext1 C - 1 - jj)%nat | Lower => jj end)) as [->|Hne].
        -- destruct t; bdec; auto.
        -- destruct t.
           ++ destruct (Nat.ltb_spec c jj); bdec; auto.
           ++ destruct (Nat.leb_spec (ext1 C) (c + jj)); bdec; auto.
      * intros r c. symmetry. apply Nat.eqb_eq.
  - intros m' Hm'. apply HQ. eapply mst_ext; [|exact Hm']. intros i j Hi Hj _. cbv beta. unfold done. destruct t; bdec; auto.
Qed.
End Trmm.

(** Proofs for the Kokkos matrix-vector products. *)
From Coq Require Import List Arith Lia Bool.
From Verif Require Import Mem Scalar View Spec Wp Loops Sums Blas2 PfBlas2 PfTrmv PfBlas2b PfRank Par PfPar KK SpecK PfKK.
Import ListNotations.
Set Implicit Arguments.
Local Open Scope sc_scope.
Local Open Scope prog_scope.

Section MV.
Context {O : ops}.

(** A program that only reads: value [v], memory unchanged, loads in R. *)
Definition reads (R : cellset) (p : prog O O) (m : mem O) (v : O) : Prop :=
  touches R (fun _ => False) p /\ succeeds p m (fun s m' => s = v /\ m' = m).

Lemma reads_bind : forall R (p : prog O O) (f : O -> prog O O) m v w,
  reads R p m v -> (forall x, touches R (fun _ => False) (f x)) -> reads R (f v) m w -> reads R (bind p f) m w.
Proof.
  intros R p f m v w [H1 H2] Hf [H3 H4]. split.
  - apply touches_bind; auto.
  - apply wp_bind. eapply wp_conseq; [exact H2|]. intros s m' [-> ->]. exact H4.
Qed.
Lemma reads_fold : forall R lo hi n (body : nat -> O -> prog O O) (e : nat -> O) s0 m,
  hi = (lo + n)%nat -> (forall j s, lo <= j < hi -> touches R (fun _ => False) (body j s)) ->
  (forall j s, lo <= j < hi -> succeeds (body j s) m (fun s' m' => s' = s + e j /\ m' = m)) ->
  reads R (fold_range lo hi body s0) m (sum_from s0 lo n e).
Proof.
  intros R lo hi n body e s0 m Hl Ht Hs. replace n with (hi - lo)%nat by lia. assert (lo <= hi) by lia. split.
  - apply touches_fold_range. auto.
  - apply wp_fold_range with (I := fun j s m' => s = sum_from s0 lo (j - lo) e /\ m' = m); auto.
    + rewrite Nat.sub_diag. auto.
    + intros j s m' Hj [-> ->]. eapply wp_conseq; [apply Hs; auto|].
      intros t m' [-> ->]. split; auto. replace (S j - lo)%nat with (S (j - lo)) by lia.
      rewrite sum_from_S. do 2 f_equal. lia.
Qed.

(** One task per element of z: read, then store. *)
Lemma region_rows : forall (z : vec O) (row : nat -> prog O O) (v : nat -> O) (R : nat -> cellset) m (Q : mem O -> Prop),
  plain_v z -> allocated m (vcells z) ->
  (forall i, i < vext z -> reads (R i) (row i) m (v i)) ->
  (forall t i, t < vext z -> i < vext z -> i <> t -> ~ R t (vaddr z i)) ->
  (forall m', vst m m' z v -> Q m') ->
  region_ok (tasks (vext z) (fun i => let! s := row i in vset (view_v z) i s)) m Q.
Proof.
  intros z row v R m Q Pz Ha Hr HR HQ.
  pose proof (view_v_holds Pz (alloc_vec_holds Ha)) as Hz.
  apply region_vec with (z := view_v z) (g := v) (R := R); simpl; auto using view_v_writable.
  - intros t i Ht Hi Hne. rewrite view_v_addr by auto. auto.
  - intros t Ht. apply touches_bind.
    + eapply touches_mono; [| |apply Hr; auto]; auto. intros a [].
    + intros s. apply touches_vset. auto.
  - intros t Ht. apply wp_bind. eapply wp_conseq; [apply Hr; auto|]. intros s m' [-> ->].
    eapply wp_vset; [apply view_v_writable|apply vst_init; exact Hz|exact Ht|].
    intros m' [Hv _]. destruct (Hv t Ht) as (w & Hw & E). simpl in E. rewrite fset_same in E. congruence.
  - intros m' [Hv Hc]. apply HQ. split.
    + intros i Hi. destruct (Hv i Hi) as (w & Hw & E). simpl in E. exists w.
      rewrite view_v_addr in Hw by auto. destruct Pz as [Hd _]. rewrite Hd. auto.
    + eapply changes_only_mono; [|exact Hc]. intros a H. apply view_v_cells; auto.
Qed.

(** Reads of plain inputs. *)
Lemma reads_term : forall (m : mem O) A (P : nat -> nat -> Prop) x a f i j (k : O -> O -> O),
  plain_v x -> mat_holds_on m A P a -> vec_holds m x f -> i < ext0 A -> j < ext1 A -> P i j ->
  forall l, l < vext x ->
  reads (fun b => mcells_on A P b \/ vcells x b)
    (let! u := mget A i j in let! w := vget (view_v x) l in Ret (k u w)) m (k (a i j) (f l)).
Proof.
  intros m A P x a f i j k Px HA Hx Hi Hj HP l Hl. split.
  - apply touches_bind; [|intros u; apply touches_bind; [|intros; exact I]].
    + apply touches_mget. intros. left. apply mcells_in; auto.
    + apply touches_vget. intros. right. rewrite view_v_addr by auto. apply vcells_in; auto.
  - apply wp_bind. eapply wp_mget; eauto. apply wp_bind. eapply wp_vget; [eapply view_v_holds; eauto|auto|].
    apply wp_ret. auto.
Qed.

Lemma step_term : forall (m : mem O) A (P : nat -> nat -> Prop) x a f i j (k : O -> O -> O),
  plain_v x -> mat_holds_on m A P a -> vec_holds m x f -> i < ext0 A -> j < ext1 A -> P i j ->
  forall l s, l < vext x ->
  touches (fun b => mcells_on A P b \/ vcells x b) (fun _ => False)
    (let! u := mget A i j in let! w := vget (view_v x) l in Ret (s + k u w)) /\
  succeeds (let! u := mget A i j in let! w := vget (view_v x) l in Ret (s + k u w)) m
    (fun s' m' => s' = s + k (a i j) (f l) /\ m' = m).
Proof.
  intros m A P x a f i j k Px HA Hx Hi Hj HP l s Hl.
  exact (reads_term (fun u w => s + k u w) Px HA Hx Hi Hj HP Hl).
Qed.

Lemma kk_tri_row_reads : forall (m : mem O) fc A t x a f i,
  plain_v x -> ext0 A = ext1 A -> vext x = ext1 A -> mat_holds_on m A (in_tri t) a -> vec_holds m x f -> i < ext0 A ->
  reads (fun b => mcells_on A (in_tri t) b \/ vcells x b) (kk_tri_row fc A t (view_v x) i) m
   (match t with
    | Upper => sum_from (sum_from zero i (ext1 A - i) (fun j => a i j * f j)) 0 i (fun j => fc (a j i) * f j)
    | Lower => sum_from (sum_from zero 0 (i + 1) (fun j => a i j * f j)) (i + 1) (ext1 A - (i + 1)) (fun j => fc (a j i) * f j)
    end).
Proof.
  intros m fc A t x a f i Px Hsq Hx HA Hf Hi. destruct t; simpl.
  - apply reads_bind with (v := sum_from zero 0 (i + 1) (fun j => a i j * f j)); [|intros s0|].
    + apply reads_fold; try lia; intros j s Hj;
        apply (step_term (fun u w => u * w) Px HA Hf); simpl; lia.
    + apply touches_fold_range. intros j s Hj.
      apply (step_term (fun u w => fc u * w) Px HA Hf); simpl; lia.
    + apply reads_fold; try lia; intros j s Hj;
        apply (step_term (fun u w => fc u * w) Px HA Hf); simpl; lia.
  - apply reads_bind with (v := sum_from zero i (ext1 A - i) (fun j => a i j * f j)); [|intros s0|].
    + apply reads_fold; try lia; intros j s Hj;
        apply (step_term (fun u w => u * w) Px HA Hf); simpl; lia.
    + apply touches_fold_range. intros j s Hj.
      apply (step_term (fun u w => fc u * w) Px HA Hf); simpl; lia.
    + apply reads_fold; try lia; intros j s Hj;
        apply (step_term (fun u w => fc u * w) Px HA Hf); simpl; lia.
Qed.

Lemma kk_trmv_row_reads : forall (m : mem O) A t d x a f i,
  plain_v x -> ext0 A = ext1 A -> vext x = ext1 A -> mat_holds_on m A (stored t d) a -> vec_holds m x f -> i < ext0 A ->
  reads (fun b => mcells_on A (stored t d) b \/ vcells x b) (kk_trmv_row A t d (view_v x) i) m
   (match d with
    | Explicit => match t with Lower => sum_from zero 0 (i + 1) (fun j => a i j * f j)
                             | Upper => sum_from zero i (ext1 A - i) (fun j => a i j * f j) end
    | ImplicitUnit => match t with Lower => sum_from zero 0 i (fun j => a i j * f j)
                             | Upper => sum_from zero (i + 1) (ext1 A - (i + 1)) (fun j => a i j * f j) end + f i
    end).
Proof.
  intros m A t d x a f i Px Hsq Hx HA Hf Hi. unfold kk_trmv_row.
  assert (Hr : forall s : O, reads (fun b => mcells_on A (stored t d) b \/ vcells x b)
    (let! xi := vget (view_v x) i in Ret (s + xi)) m (s + f i)).
  { intros s. split.
    - apply touches_bind; [|intros; exact I]. apply touches_vget. intros. right. rewrite view_v_addr by auto.
      apply vcells_in; auto.
    - apply wp_bind. eapply wp_vget; [eapply view_v_holds; eauto|simpl; lia|]. apply wp_ret. auto. }
  destruct d; simpl is_explicit; cbv iota.
  - destruct t.
    + apply reads_bind with (v := sum_from zero 0 (i + 1) (fun j => a i j * f j)); [|intros s0; exact I|split; [exact I|apply wp_ret; auto]].
      apply reads_fold; try lia; intros j s Hj; apply (step_term (fun u w => u * w) Px HA Hf); simpl; try lia;
      (split; [simpl; lia|congruence]).
    + apply reads_bind with (v := sum_from zero i (ext1 A - i) (fun j => a i j * f j)); [|intros s0; exact I|split; [exact I|apply wp_ret; auto]].
      apply reads_fold; try lia; intros j s Hj; apply (step_term (fun u w => u * w) Px HA Hf); simpl; try lia;
      (split; [simpl; lia|congruence]).
  - destruct t.
    + apply reads_bind with (v := sum_from zero 0 i (fun j => a i j * f j)); [|intros s0; apply Hr|apply Hr].
      apply reads_fold; try lia; intros j s Hj; apply (step_term (fun u w => u * w) Px HA Hf); simpl; try lia;
      (split; simpl; lia).
    + apply reads_bind with (v := sum_from zero (i + 1) (ext1 A - (i + 1)) (fun j => a i j * f j)); [|intros s0; apply Hr|apply Hr].
      apply reads_fold; try lia; intros j s Hj; apply (step_term (fun u w => u * w) Px HA Hf); simpl; try lia;
      (split; simpl; lia).
Qed.

(** One task per element of z, reading also element i of y, which may live in the cell of z(i). *)
Lemma region_rows_upd : forall (y z : vec O) (row : nat -> prog O O) (v g : nat -> O) (R0 : cellset) m (Q : mem O -> Prop),
  plain_v z -> plain_v y -> vext y = vext z -> allocated m (vcells z) -> vec_holds m y g ->
  (forall i, i < vext z -> reads R0 (row i) m (v i)) ->
  disjoint R0 (vcells z) -> disjoint_or_aligned_v y z ->
  (forall m', vst m m' z (fun i => g i + v i) -> Q m') ->
  region_ok (tasks (vext z) (fun i => let! s := row i in let! yi := vget (view_v y) i in vset (view_v z) i (yi + s))) m Q.
Proof.
  intros z' z row v g R0 m Q Pz Py He Ha Hy Hr HR Hal HQ. rename z' into y.
  pose proof (view_v_holds Pz (alloc_vec_holds Ha)) as Hz.
  apply region_vec with (z := view_v z) (g := fun i => g i + v i) (R := fun i b => R0 b \/ b = vaddr y i); simpl; auto using view_v_writable.
  - intros t i Ht Hi Hne. rewrite view_v_addr by auto. intros [H|H].
    + apply (HR _ H). apply vcells_in; auto.
    + destruct Hal as [Hd|Hal].
      * apply (Hd (vaddr z i)); [rewrite H; apply vcells_in; lia|apply vcells_in; auto].
      * pose proof (Hal t ltac:(lia)) as E. rewrite E in H.
        unfold vaddr in H. rewrite !(proj2 Pz) in H by auto. lia.
  - intros t Ht. apply touches_bind; [|intros s; apply touches_bind; [|intros w]].
    + apply touches_mono with (R := R0) (W := fun _ => False); [cbv beta; tauto|cbv beta; tauto|apply Hr; auto].
    + apply touches_vget. intros. right. rewrite view_v_addr by (auto; lia). auto.
    + apply touches_vset. auto.
  - intros t Ht. apply wp_bind. eapply wp_conseq; [apply Hr; auto|]. intros s m' [-> ->].
    vgv y.
    eapply wp_vset; [apply view_v_writable|apply vst_init; exact Hz|exact Ht|].
    intros m' [Hv _]. destruct (Hv t Ht) as (w & Hw & E). simpl in E. rewrite fset_same in E. congruence.
  - intros m' [Hv Hc]. apply HQ. split.
    + intros i Hi. destruct (Hv i Hi) as (w & Hw & E). simpl in E. exists w.
      rewrite view_v_addr in Hw by auto. destruct Pz as [Hd _]. rewrite Hd. auto.
    + intros a H. apply Hc. intros H'. apply H. apply view_v_cells; auto.
Qed.

(** * Sums *)
Definition kk_sym_val (fc : O -> O) (t : triangle) n (a : nat -> nat -> O) (f : nat -> O) (i : nat) : O :=
  match t with
  | Upper => sum_from (sum_from zero i (n - i) (fun j => a i j * f j)) 0 i (fun j => fc (a j i) * f j)
  | Lower => sum_from (sum_from zero 0 (i + 1) (fun j => a i j * f j)) (i + 1) (n - (i + 1)) (fun j => fc (a j i) * f j)
  end.
Definition fc_of (fc : O -> O) (t : triangle) (a : nat -> nat -> O) (i j : nat) : O :=
  if in_tri_b t i j then a i j else fc (a j i).
Lemma kk_sym_val_lower : forall fc n a f i, i < n ->
  kk_sym_val fc Lower n a f i = bigsum n (fun j => fc_of fc Lower a i j * f j).
Proof.
  intros fc n a f i Hi. unfold kk_sym_val, bigsum.
  replace n with ((i + 1) + (n - (i + 1)))%nat at 2 by lia.
  etransitivity; [|symmetry; apply sum_from_app]. rewrite Nat.add_0_l.
  assert (E : sum_from zero 0 (i + 1) (fun j => a i j * f j) =
              sum_from zero 0 (i + 1) (fun j => fc_of fc Lower a i j * f j)).
  { apply sum_from_ext. intros k Hk; unfold fc_of; simpl; bdec; auto. }
  rewrite E. apply sum_from_ext. intros k Hk; unfold fc_of; simpl; bdec; auto.
Qed.
Lemma kk_sym_val_ok : forall fc t n a f i, add_laws O -> i < n ->
  kk_sym_val fc t n a f i = bigsum n (fun j => fc_of fc t a i j * f j).
Proof.
  intros fc t n a f i L Hi. destruct t; [apply kk_sym_val_lower; auto|]. unfold kk_sym_val, bigsum.
  replace n with (i + (n - i))%nat at 2 by lia.
  etransitivity; [|symmetry; apply sum_from_app]. rewrite Nat.add_0_l.
  rewrite (sum_from_init L (sum_from zero i _ _)), (add_comm L), <- (sum_from_init L (sum_from zero 0 _ _)).
  assert (E : sum_from zero 0 i (fun j => fc (a j i) * f j) =
              sum_from zero 0 i (fun j => fc_of fc Upper a i j * f j)).
  { apply sum_from_ext. intros k Hk; unfold fc_of; simpl; bdec; auto. }
  rewrite E. apply sum_from_ext. intros k Hk; unfold fc_of; simpl; bdec; auto.
Qed.
Definition kk_tri_val (t : triangle) (d : diagonal) n (a : nat -> nat -> O) (f : nat -> O) (i : nat) : O :=
   match d with
    | Explicit => match t with Lower => sum_from zero 0 (i + 1) (fun j => a i j * f j)
                             | Upper => sum_from zero i (n - i) (fun j => a i j * f j) end
    | ImplicitUnit => match t with Lower => sum_from zero 0 i (fun j => a i j * f j)
                             | Upper => sum_from zero (i + 1) (n - (i + 1)) (fun j => a i j * f j) end + f i
    end.
Lemma kk_tri_val_exact : forall t d n a f i, i < n -> t = Lower \/ d = Explicit ->
  kk_tri_val t d n a f i = tri_row zero t d n a f i.
Proof.
  intros t d n a f i Hi H. unfold kk_tri_val, tri_row. destruct d, t; try (destruct H; discriminate);
  try (apply sum_from_ext; intros k Hk; unfold tri_term; destruct (Nat.eqb_spec i k); subst; auto; fail).
  replace (i + 1)%nat with (S i) by lia. rewrite sum_from_S. f_equal.
  - apply sum_from_ext; intros k Hk; unfold tri_term; bdec; subst; auto.
  - unfold tri_term; bdec; auto.
Qed.
Lemma kk_tri_val_ok : forall t d n a f i, add_laws O -> i < n ->
  kk_tri_val t d n a f i = tri_row zero t d n a f i.
Proof.
  intros t d n a f i L Hi. destruct t; [apply kk_tri_val_exact; auto|].
  destruct d; [apply kk_tri_val_exact; auto|]. unfold kk_tri_val, tri_row.
  replace (n - i)%nat with (S (n - (i + 1))) by lia. rewrite sum_from_head, (add_0_l L).
  rewrite (sum_from_init L (tri_term _ _ _ _ _)), (add_comm L). f_equal.
  - unfold tri_term; bdec; auto.
  - replace (i + 1)%nat with (S i) by lia. apply sum_from_ext; intros k Hk; unfold tri_term; bdec; subst; auto.
Qed.

(** * Results *)
Lemma kk_gemv_upd_vst : forall (m : mem O) A x y z a f g (Q : mem O -> Prop),
  vext x = ext1 A -> vext y = ext0 A -> vext z = ext0 A -> plain_m A -> plain_v x -> plain_v y -> plain_v z ->
  mat_holds m A a -> vec_holds m x f -> vec_holds m y g -> allocated m (vcells z) ->
  disjoint (mcells A) (vcells z) -> disjoint (vcells x) (vcells z) -> disjoint_or_aligned_v y z ->
  (forall m', vst m m' z (fun i => bigsum (ext1 A) (fun j => g i + a i j * f j)) -> Q m') ->
  par_succeeds (kk_matrix_vector_product_upd A x y z) m Q.
Proof.
  intros m A x y z a f g Q Hx Hy Hz PA Px Py Pz HA Hf Hg Hal HdA Hdx Hyz HQ.
  unfold kk_matrix_vector_product_upd. plain. simpl.
  apply region_rows with (v := fun i => bigsum (ext1 A) (fun j => g i + a i j * f j))
    (R := fun i b => (mcells A b \/ vcells x b) \/ b = vaddr y i); auto.
  - intros i Hi. apply reads_fold; auto.
    + intros j s Hj. apply touches_bind; [|intros u].
      * apply touches_vget. intros. right. rewrite view_v_addr by (auto; lia). auto.
      * apply touches_bind; [|intros w; apply touches_bind; [|intros; exact I]].
        -- apply touches_mget. intros. left. left. apply mcells_in_all; lia.
        -- apply touches_vget. intros. left. right. rewrite view_v_addr by (auto; lia). apply vcells_in; lia.
    + intros j s Hj. vgv y. apply wp_bind. eapply wp_mget; [exact HA|lia|lia|exact I|]. vgv x. apply wp_ret. auto.
  - intros t i Ht Hi Hne [[H|H]|H].
    + apply (HdA _ H). apply vcells_in; auto.
    + apply (Hdx _ H). apply vcells_in; auto.
    + destruct Hyz as [Hd|Hal'].
      * apply (Hd (vaddr z i)); [rewrite H; apply vcells_in; lia|apply vcells_in; auto].
      * rewrite (Hal' t ltac:(lia)) in H. unfold vaddr in H. rewrite !(proj2 Pz) in H by auto. lia.
Qed.

Lemma kk_mv_vst : forall (m : mem O) fc A t x y a f (Q : mem O -> Prop),
  ext0 A = ext1 A -> vext x = ext1 A -> vext y = ext0 A -> plain_m A -> plain_v x -> plain_v y ->
  mat_holds_on m A (in_tri t) a -> vec_holds m x f -> allocated m (vcells y) ->
  disjoint (mcells_on A (in_tri t)) (vcells y) -> disjoint (vcells x) (vcells y) ->
  (forall m', vst m m' y (kk_sym_val fc t (ext1 A) a f) -> Q m') ->
  par_succeeds (kk_sy_he_mv fc A t x y) m Q.
Proof.
  intros m fc A t x y a f Q Hsq Hx Hy PA Px Py HA Hf Hal HdA Hdx HQ.
  unfold kk_sy_he_mv. plain. simpl. rewrite <- Hy.
  apply region_rows with (v := kk_sym_val fc t (ext1 A) a f) (R := fun _ b => mcells_on A (in_tri t) b \/ vcells x b); auto.
  - intros i Hi. apply kk_tri_row_reads; auto; lia.
  - intros s i Hs Hi Hne [H|H]; [apply (HdA _ H)|apply (Hdx _ H)]; apply vcells_in; auto.
Qed.
Lemma kk_mv_upd_vst : forall (m : mem O) fc A t x y z a f g (Q : mem O -> Prop),
  ext0 A = ext1 A -> vext x = ext1 A -> vext y = ext0 A -> vext z = ext0 A -> plain_m A -> plain_v x -> plain_v y -> plain_v z ->
  mat_holds_on m A (in_tri t) a -> vec_holds m x f -> vec_holds m y g -> allocated m (vcells z) ->
  disjoint (mcells_on A (in_tri t)) (vcells z) -> disjoint (vcells x) (vcells z) -> disjoint_or_aligned_v y z ->
  (forall m', vst m m' z (fun i => g i + kk_sym_val fc t (ext1 A) a f i) -> Q m') ->
  par_succeeds (kk_sy_he_mv_upd fc A t x y z) m Q.
Proof.
  intros m fc A t x y z a f g Q Hsq Hx Hy Hz PA Px Py Pz HA Hf Hg Hal HdA Hdx Hyz HQ.
  unfold kk_sy_he_mv_upd. plain. simpl. rewrite <- Hz.
  apply region_rows_upd with (v := kk_sym_val fc t (ext1 A) a f) (g := g) (R0 := fun b => mcells_on A (in_tri t) b \/ vcells x b); auto; try lia.
  - intros i Hi. apply kk_tri_row_reads; auto; lia.
  - intros b [H|H]; [apply (HdA _ H)|apply (Hdx _ H)].
Qed.
Lemma kk_trmv_vst : forall (m : mem O) A t d x y a f (Q : mem O -> Prop),
  ext0 A = ext1 A -> vext x = ext1 A -> vext y = ext0 A -> plain_m A -> plain_v x -> plain_v y ->
  mat_holds_on m A (stored t d) a -> vec_holds m x f -> allocated m (vcells y) ->
  disjoint (mcells_on A (stored t d)) (vcells y) -> disjoint (vcells x) (vcells y) ->
  (forall m', vst m m' y (kk_tri_val t d (ext1 A) a f) -> Q m') ->
  par_succeeds (kk_triangular_matrix_vector_product A t d x y) m Q.
Proof.
  intros m A t d x y a f Q Hsq Hx Hy PA Px Py HA Hf Hal HdA Hdx HQ.
  unfold kk_triangular_matrix_vector_product. plain. cbn [par_succeeds]. rewrite <- Hy.
  apply region_rows with (v := kk_tri_val t d (ext1 A) a f) (R := fun _ b => mcells_on A (stored t d) b \/ vcells x b); auto.
  - intros i Hi. apply kk_trmv_row_reads; auto; lia.
  - intros s i Hs Hi Hne [H|H]; [apply (HdA _ H)|apply (Hdx _ H)]; apply vcells_in; auto.
Qed.
Lemma kk_trmv_upd_vst : forall (m : mem O) A t d x y z a f g (Q : mem O -> Prop),
  ext0 A = ext1 A -> vext x = ext1 A -> vext y = ext0 A -> vext z = ext0 A -> plain_m A -> plain_v x -> plain_v y -> plain_v z ->
  mat_holds_on m A (stored t d) a -> vec_holds m x f -> vec_holds m y g -> allocated m (vcells z) ->
  disjoint (mcells_on A (stored t d)) (vcells z) -> disjoint (vcells x) (vcells z) -> disjoint_or_aligned_v y z ->
  (forall m', vst m m' z (fun i => g i + kk_tri_val t d (ext1 A) a f i) -> Q m') ->
  par_succeeds (kk_triangular_matrix_vector_product_upd A t d x y z) m Q.
Proof.
  intros m A t d x y z a f g Q Hsq Hx Hy Hz PA Px Py Pz HA Hf Hg Hal HdA Hdx Hyz HQ.
  unfold kk_triangular_matrix_vector_product_upd. plain. cbn [par_succeeds]. rewrite <- Hz.
  apply region_rows_upd with (v := kk_tri_val t d (ext1 A) a f) (g := g) (R0 := fun b => mcells_on A (stored t d) b \/ vcells x b); auto; try lia.
  - intros i Hi. apply kk_trmv_row_reads; auto; lia.
  - intros b [H|H]; [apply (HdA _ H)|apply (Hdx _ H)].
Qed.
End MV.

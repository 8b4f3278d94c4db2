(** Kokkos copy and swap_elements under every schedule. *)
From Coq Require Import List Arith Lia Bool.
From Verif Require Import Mem Scalar View Spec Wp Loops Sums PfView Blas1 PfBlas1 Norm Par PfPar SpecK KK PfKK PfKK3 PfKK6 Red KKNorm.
Import ListNotations.
Set Implicit Arguments.
Local Open Scope prog_scope.

Section S.
Context {O : ops}.

Lemma kk_copy_2_ok : forall (m : mem O) x y f, ext0 x = ext0 y -> ext1 x = ext1 y -> plain_m x -> plain_m y ->
  mat_holds m x f -> allocated m (mcells y) -> disjoint (mcells x) (mcells y) ->
  par_succeeds (kk_copy_2 x y) m (fun m' => mat_holds m' y f /\ changes_only m m' (mcells y)).
Proof.
  intros m x y f H0 H1 Px Py Hx Ha Hd. unfold kk_copy_2. plain. cbn [par_succeeds].
  pose proof (alloc_mat_holds Ha) as Hy. rewrite H0.
  apply region_lines with (C := y) (P := all2) (g := f) (n := ext0 y) (len := fun _ => ext1 x) (r := fun t _ => t)
    (c := fun _ k => k) (own := fun i _ => i) (Rin := fun i j a => mcells x a)
    (action := fun i j => let! v := mget x i j in mset y i j v).
  - apply plain_mwritable; auto.
  - intros i j Hi Hj _. split; [tch|]. intros i' j' Hi' Hj' _ _ H. eapply Hd; eauto. apply mcells_in_all; auto.
  - intros; repeat split; auto; lia.
  - intros; auto.
  - intros i j Hi Hj _. split; auto. exists j. split; auto; lia.
  - intros i j Hi Hj _. apply wp_bind. eapply wp_mget; [exact Hx|lia|lia|exact I|].
    eapply wp_mset with (P := all2); [apply plain_mwritable; auto|apply mst_init; exact Hy|auto|auto|exact I|].
    intros m' Hm'. rewrite (mst_cell (proj1 Py) Hm'); auto; [|exact I]. rewrite fset2_same. auto.
  - intros m' Hm'. auto.
Qed.
Lemma kk_copy_2_same : forall (m : mem O) x y f, ext0 x = ext0 y -> ext1 x = ext1 y -> plain_m x -> plain_m y ->
  mat_holds m x f -> allocated m (mcells y) -> disjoint (mcells x) (mcells y) ->
  par_same_as (kk_copy_2 x y) (copy_2 x y) m.
Proof.
  intros m x y f H0 H1 Px Py Hx Ha Hd.
  apply par_same_mst with (C := y) (P := all2) (g := f); [apply all2_dec|apply Py| |].
  - eapply copy_2_ok; eauto using plain_mwritable. left; auto.
  - intros Q HQ. eapply par_mono; [eapply kk_copy_2_ok; eauto|]. intros; apply HQ; auto.
Qed.

Lemma kk_swap_1_ok : forall (m : mem O) x y f g, vext x = vext y -> plain_v x -> plain_v y ->
  vec_holds m x f -> vec_holds m y g -> disjoint (vcells x) (vcells y) ->
  par_succeeds (kk_swap_1 x y) m (fun m' => vec_holds m' x g /\ vec_holds m' y f /\
    changes_only m m' (fun a => vcells x a \/ vcells y a)).
Proof.
  intros m x y f g He Px Py Hx Hy Hd. unfold kk_swap_1. plain. cbn [par_succeeds].
  assert (Hvx : vec_holds m (view_v x) f) by (apply view_v_holds; auto).
  assert (Hvy : vec_holds m (view_v y) g) by (apply view_v_holds; auto).
  assert (Hvd : disjoint (vcells (view_v x)) (vcells (view_v y))).
  { intros a A1 A2. apply view_v_cells_to in A1; auto. apply view_v_cells_to in A2; auto. eapply Hd; eauto. }
  apply region_owned with (X := (bool * nat)%type) (dom := fun p : bool * nat => snd p < vext x)
    (addr := fun p : bool * nat => if fst p then vaddr (view_v x) (snd p) else vaddr (view_v y) (snd p)) (own := fun p : bool * nat => snd p)
    (val := fun p : bool * nat => if fst p then g (snd p) else f (snd p))
    (R := fun t a => a = vaddr (view_v x) t \/ a = vaddr (view_v y) t).
  - intros [[] i] [[] j]; simpl; intros Hi Hj E; try (unfold vaddr in E; simpl in E; lia); exfalso.
    + apply (Hvd (vaddr (view_v x) i)); [exists i; auto|rewrite E; exists j; split; simpl; auto; lia].
    + apply (Hvd (vaddr (view_v x) j)); [exists j; auto|rewrite <- E; exists i; split; simpl; auto; lia].
  - auto.
  - intros t [[] i]; simpl; intros Ht Hi Hne [E|E]; try (unfold vaddr in E; simpl in E; lia).
    + apply (Hvd (vaddr (view_v x) i)); [exists i; auto|rewrite E; exists t; split; simpl; auto; lia].
    + apply (Hvd (vaddr (view_v x) t)); [exists t; auto|rewrite <- E; exists i; split; simpl; auto; lia].
  - intros t Ht. tch; auto.
    + exists (true, t). auto.
    + exists (false, t). auto.
  - intros t Ht.
    apply wp_bind. eapply wp_vget; [exact Hvx|simpl; lia|].
    apply wp_bind. eapply wp_vget; [exact Hvy|simpl; lia|].
    assert (I0 : vst2 m m (view_v x) (view_v y) f g) by (split; [|split]; auto using changes_only_refl).
    apply wp_bind. eapply wp_vset2_l; [apply view_v_writable|exact Hvd|exact I0|simpl; lia|]. intros m1 I1.
    eapply wp_vset2_r; [apply view_v_writable|exact Hvd|exact I1|simpl; lia|]. intros m2 (I2 & I3 & _).
    intros [[] i]; simpl; intros Hi ->.
    + destruct (I2 t Hi) as (v & Hv & E). simpl in E. subst v. rewrite Hv. unfold fset. rewrite Nat.eqb_refl. auto.
    + destruct (I3 t ltac:(simpl; lia)) as (v & Hv & E). simpl in E. subst v. rewrite Hv. unfold fset. rewrite Nat.eqb_refl. auto.
  - intros m' Hv Hc. split; [|split].
    + intros i Hi. exists (g i). rewrite (proj1 Px). split; auto. rewrite <- view_v_addr by auto. apply (Hv (true, i)); auto.
    + intros i Hi. exists (f i). rewrite (proj1 Py). split; auto. rewrite <- view_v_addr by auto. apply (Hv (false, i)). simpl; lia.
    + eapply changes_only_mono; [|exact Hc]. intros a ([[] i] & Hi & ->); simpl in *; [left|right];
      apply view_v_cells; auto; exists i; split; simpl; auto; lia.
Qed.
Lemma swap_same_v : forall (m m1 m2 : mem O) x y f g, vacc x = ADefault -> vacc y = ADefault ->
  (vec_holds m1 x g /\ vec_holds m1 y f /\ changes_only m m1 (fun a => vcells x a \/ vcells y a)) ->
  (vec_holds m2 x g /\ vec_holds m2 y f /\ changes_only m m2 (fun a => vcells x a \/ vcells y a)) -> same_memory m1 m2.
Proof.
  intros m m1 m2 x y f g Dx Dy (A1 & A2 & A3) (B1 & B2 & B3) a.
  assert (D : vcells x a \/ vcells y a \/ ~ (vcells x a \/ vcells y a)) by (destruct (vcells_dec x a), (vcells_dec y a); tauto).
  destruct D as [(i & Hi & ->)|[(i & Hi & ->)|D]].
  - destruct (A1 i Hi) as (v & V1 & V2), (B1 i Hi) as (w & W1 & W2). rewrite Dx in *. simpl in *. congruence.
  - destruct (A2 i Hi) as (v & V1 & V2), (B2 i Hi) as (w & W1 & W2). rewrite Dy in *. simpl in *. congruence.
  - rewrite A3, B3; auto.
Qed.
Lemma kk_swap_1_same : forall (m : mem O) x y f g, vext x = vext y -> plain_v x -> plain_v y ->
  vec_holds m x f -> vec_holds m y g -> disjoint (vcells x) (vcells y) ->
  par_same_as (kk_swap_1 x y) (swap_1 x y) m.
Proof.
  intros m x y f g He Px Py Hx Hy Hd. eapply par_mono; [eapply kk_swap_1_ok; eauto|].
  intros m' H. eapply wp_conseq; [eapply swap_1_ok; eauto using plain_writable|].
  intros [] m'' H'. eapply swap_same_v; [apply Px|apply Py|exact H'|exact H].
Qed.

Lemma kk_swap_2_ok : forall (m : mem O) x y f g, ext0 x = ext0 y -> ext1 x = ext1 y -> plain_m x -> plain_m y ->
  mat_holds m x f -> mat_holds m y g -> disjoint (mcells x) (mcells y) ->
  par_succeeds (kk_swap_2 x y) m (fun m' => mat_holds m' x g /\ mat_holds m' y f /\
    changes_only m m' (fun a => mcells x a \/ mcells y a)).
Proof.
  intros m x y f g H0 H1 Px Py Hx Hy Hd. unfold kk_swap_2. plain. cbn [par_succeeds].
  assert (Wx := plain_mwritable Px). assert (Wy := plain_mwritable Py).
  assert (Ux : forall i j i' j', i < ext0 x -> j < ext1 x -> i' < ext0 x -> j' < ext1 x -> maddr x i j = maddr x i' j' -> i = i' /\ j = j').
  { intros. apply (proj2 Wx); auto; exact I. }
  assert (Uy : forall i j i' j', i < ext0 x -> j < ext1 x -> i' < ext0 x -> j' < ext1 x -> maddr y i j = maddr y i' j' -> i = i' /\ j = j').
  { intros. apply (proj2 Wy); try exact I; auto; lia. }
  assert (Nxy : forall i j i' j', i < ext0 x -> j < ext1 x -> i' < ext0 x -> j' < ext1 x -> maddr x i j <> maddr y i' j').
  { intros i j i' j' A1 A2 A3 A4 E. apply (Hd (maddr x i j)); [apply mcells_in_all; auto|]. rewrite E. apply mcells_in_all; lia. }
  apply region_owned with (X := (bool * (nat * nat))%type) (dom := fun p : bool * (nat * nat) => fst (snd p) < ext0 x /\ snd (snd p) < ext1 x)
    (addr := fun p : bool * (nat * nat) => if fst p then maddr x (fst (snd p)) (snd (snd p)) else maddr y (fst (snd p)) (snd (snd p)))
    (own := fun p : bool * (nat * nat) => fst (snd p))
    (val := fun p : bool * (nat * nat) => if fst p then g (fst (snd p)) (snd (snd p)) else f (fst (snd p)) (snd (snd p)))
    (R := fun t a => exists j, j < ext1 x /\ (a = maddr x t j \/ a = maddr y t j)).
  - intros [[] [i j]] [[] [i' j']]; simpl; intros [Hi Hj] [Hi' Hj'] E.
    + eapply Ux in E; eauto. tauto.
    + exfalso; eapply Nxy; [| | | |exact E]; auto.
    + exfalso; eapply Nxy; [| | | |symmetry; exact E]; auto.
    + eapply Uy in E; eauto. tauto.
  - intros [b [i j]]; simpl; tauto.
  - intros t [[] [i j]]; simpl; intros Ht [Hi Hj] Hne (j' & Hj' & [E|E]).
    + eapply Ux in E; eauto. tauto.
    + eapply Nxy; [| | | |exact E]; auto.
    + eapply Nxy; [| | | |symmetry; exact E]; auto.
    + eapply Uy in E; eauto. tauto.
  - intros t Ht. apply touches_for_range. intros j Hj. tch; eauto.
    + exists j. split; [lia|auto].
    + exists (true, (t, j)). simpl. repeat split; auto; lia.
    + exists (false, (t, j)). simpl. repeat split; auto; lia.
  - intros t Ht.
    apply wp_for_range with (I := fun k m' => mst2 m m' x y
         (fun i j => if (i =? t) && (j <? k) then g i j else f i j)
         (fun i j => if (i =? t) && (j <? k) then f i j else g i j)); try lia.
    + apply mst2_ext with (f := f) (g := g); [intros; bcase|intros; bcase|]. split; [|split]; auto using changes_only_refl.
    + intros j m1 Hj HI1. pose proof HI1 as (HIx & HIy & HIc).
      apply wp_bind. eapply wp_mget; [exact HIx | lia | lia | exact I |].
      apply wp_bind. eapply wp_mget; [exact HIy | lia | lia | exact I |].
      apply wp_bind. eapply wp_mset2_l; eauto; try lia. intros m2 I2.
      eapply wp_mset2_r; eauto; try lia. intros m3 I3.
      eapply mst2_ext; [| | exact I3]; intros k l Hk Hl; unfold fset2; bcase.
    + intros m1 (I1 & I2 & _) [[] [i j]]; simpl; intros [Hi Hj] ->.
      * destruct (I1 t j Hi Hj I) as (v & Hv & E). rewrite (proj1 Px) in E. simpl in E. subst v. rewrite Hv. bcase.
      * destruct (I2 t j ltac:(lia) ltac:(lia) I) as (v & Hv & E). rewrite (proj1 Py) in E. simpl in E. subst v. rewrite Hv. bcase.
  - intros m' Hv Hc. split; [|split].
    + intros i j Hi Hj _. exists (g i j). rewrite (proj1 Px). split; auto. apply (Hv (true, (i, j))); auto.
    + intros i j Hi Hj _. exists (f i j). rewrite (proj1 Py). split; auto. apply (Hv (false, (i, j))). simpl; lia.
    + eapply changes_only_mono; [|exact Hc]. intros a ([[] [i j]] & [Hi Hj] & ->); simpl in *; [left|right]; apply mcells_in_all; lia.
Qed.
Lemma kk_swap_2_same : forall (m : mem O) x y f g, ext0 x = ext0 y -> ext1 x = ext1 y -> plain_m x -> plain_m y ->
  mat_holds m x f -> mat_holds m y g -> disjoint (mcells x) (mcells y) ->
  par_same_as (kk_swap_2 x y) (swap_2 x y) m.
Proof.
  intros m x y f g H0 H1 Px Py Hx Hy Hd. eapply par_mono; [eapply kk_swap_2_ok; eauto|].
  intros m' (A1 & A2 & A3). eapply wp_conseq; [eapply swap_2_ok; eauto using plain_mwritable|].
  intros [] m'' (B1 & B2 & B3) a.
  assert (D : mcells x a \/ mcells y a \/ ~ (mcells x a \/ mcells y a)).
  { destruct (@mcells_dec O x all2 a all2_dec), (@mcells_dec O y all2 a all2_dec); unfold mcells; tauto. }
  destruct D as [(i & j & Hi & Hj & _ & ->)|[(i & j & Hi & Hj & _ & ->)|D]].
  - destruct (A1 i j Hi Hj I) as (v & V1 & V2), (B1 i j Hi Hj I) as (w & W1 & W2). rewrite (proj1 Px) in *. simpl in *. congruence.
  - destruct (A2 i j Hi Hj I) as (v & V1 & V2), (B2 i j Hi Hj I) as (w & W1 & W2). rewrite (proj1 Py) in *. simpl in *. congruence.
  - rewrite A3, B3; auto.
Qed.
Lemma kk_swap_1_mismatch : forall (x y : vec O), vext x <> vext y -> par_throws (kk_swap_1 x y).
Proof. intros x y H. unfold kk_swap_1, check_eq. destruct (Nat.eqb_spec (vext x) (vext y)); [congruence|reflexivity]. Qed.
Lemma kk_swap_2_mismatch : forall (x y : mat O), ext0 x <> ext0 y \/ ext1 x <> ext1 y -> par_throws (kk_swap_2 x y).
Proof.
  intros x y H. unfold kk_swap_2, check_eq. destruct (Nat.eqb_spec (ext0 x) (ext0 y)); [|reflexivity].
  destruct (Nat.eqb_spec (ext1 x) (ext1 y)); [tauto|reflexivity].
Qed.
End S.

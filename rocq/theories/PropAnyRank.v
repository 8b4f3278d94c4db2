(** Property C78: elementwise algorithms on objects of any rank. *)
From Coq Require Import List Arith ZArith Lia Bool.
From Verif Require Import Mem Scalar View Spec Wp Blas1 AnyRank SpecAR PfAnyRank Inst.
Import ListNotations.
Local Open Scope nat_scope.

(** * C78 *)
(** The full statement has no hypothesis about the rank: it is to hold of every call that compiles,
    see [C78_compiles].  Missing is rank 0, for which it is false: [C78_rank_0_refuted]. *)
Theorem C78_copy_partial : forall (O : ops) (m : mem O) (x y : obj O) (f : list nat -> O),
  same_shape x y -> orank x = 1 \/ orank x = 2 ->
  obj_holds m x f -> owritable y -> allocated m (ocells y) -> disjoint_or_aligned x y ->
  call_succeeds (copy_any x y) m (fun m' => obj_holds m' y f /\ changes_only m m' (ocells y)).
Proof. exact (@copy_any_ok). Qed.
Print Assumptions C78_copy_partial.

Theorem C78_swap_partial : forall (O : ops) (m : mem O) (x y : obj O) (f g : list nat -> O),
  same_shape x y -> orank x = 1 \/ orank x = 2 ->
  obj_holds m x f -> obj_holds m y g -> owritable x -> owritable y -> disjoint (ocells x) (ocells y) ->
  call_succeeds (swap_any x y) m (fun m' => obj_holds m' x g /\ obj_holds m' y f /\
    changes_only m m' (fun a => ocells x a \/ ocells y a)).
Proof. exact (@swap_any_ok). Qed.
Print Assumptions C78_swap_partial.

Theorem C78_scale_partial : forall (O : ops) (m : mem O) (alpha : O) (x : obj O) (f : list nat -> O),
  orank x = 1 \/ orank x = 2 -> obj_holds m x f -> owritable x ->
  call_succeeds (scale_any alpha x) m (fun m' =>
    obj_holds m' x (fun i => (f i * alpha)%sc) /\ changes_only m m' (ocells x)).
Proof. exact (@scale_any_ok). Qed.
Print Assumptions C78_scale_partial.

Theorem C78_add_partial : forall (O : ops) (m : mem O) (x y z : obj O) (f g : list nat -> O),
  same_shape x z -> same_shape y z -> orank z = 1 \/ orank z = 2 ->
  obj_holds m x f -> obj_holds m y g ->
  owritable z -> allocated m (ocells z) -> disjoint_or_aligned x z -> disjoint_or_aligned y z ->
  call_succeeds (add_any x y z) m (fun m' =>
    obj_holds m' z (fun i => (f i + g i)%sc) /\ changes_only m m' (ocells z)).
Proof. exact (@add_any_ok). Qed.
Print Assumptions C78_add_partial.

(** The calls that compile are those with equal ranks of at most two. *)
Theorem C78_compiles : forall (O : ops) (alpha : O) (x y z : obj O),
  (copy_any x y <> None <-> orank x = orank y /\ orank x <= 2) /\
  (swap_any x y <> None <-> orank x = orank y /\ orank x <= 2) /\
  (scale_any alpha x <> None <-> orank x <= 2) /\
  (add_any x y z <> None <-> orank x = orank z /\ orank y = orank z /\ orank z <= 2).
Proof. exact (@any_compiles). Qed.
Print Assumptions C78_compiles.

(** On rank 0 none of the four algorithms does anything. *)
Theorem C78_rank_0 : forall (O : ops) (m : mem O) (alpha : O) (x y z : obj O),
  orank x = 0 -> orank y = 0 -> orank z = 0 ->
  call_succeeds (copy_any x y) m (fun m' => m' = m) /\
  call_succeeds (swap_any x y) m (fun m' => m' = m) /\
  call_succeeds (scale_any alpha x) m (fun m' => m' = m) /\
  call_succeeds (add_any x y z) m (fun m' => m' = m).
Proof. exact (@rank0_nothing). Qed.
Print Assumptions C78_rank_0.

(** The one element of a rank-0 object at address a. *)
Definition scalar_at (a : nat) : obj zops := Obj 0 (fun _ => 0) (fun _ => 0) a ADefault.

Theorem C78_rank_0_refuted : exists (O : ops) (m : mem O) (alpha : O) (x y z : obj O) (f g : list nat -> O),
  same_shape x y /\ same_shape x z /\ same_shape y z /\ orank x <= 2 /\
  owritable x /\ owritable y /\ owritable z /\ allocated m (ocells z) /\
  disjoint (ocells x) (ocells y) /\ disjoint (ocells x) (ocells z) /\ disjoint (ocells y) (ocells z) /\
  obj_holds m x f /\ obj_holds m y g /\
  ~ call_succeeds (copy_any x y) m (fun m' => obj_holds m' y f) /\
  ~ call_succeeds (swap_any x y) m (fun m' => obj_holds m' x g /\ obj_holds m' y f) /\
  ~ call_succeeds (scale_any alpha x) m (fun m' => obj_holds m' x (fun i => (f i * alpha)%sc)) /\
  ~ call_succeeds (add_any x y z) m (fun m' => obj_holds m' z (fun i => (f i + g i)%sc)).
Proof.
  exists zops, (mem_of [1; 2; 7]%Z), 5%Z, (scalar_at 0), (scalar_at 1), (scalar_at 2), (fun _ => 1%Z), (fun _ => 2%Z).
  assert (forall a, index_of (scalar_at a) []) as Hi.
  { intros a. split; [reflexivity|]. intros k Hk. simpl in Hk. lia. }
  assert (forall a, owritable (scalar_at a)) as Hw.
  { intros a. split; [reflexivity|]. intros [|i l] [|j l'] [A _] [B _] _; try discriminate. reflexivity. }
  assert (forall a b, same_shape (scalar_at a) (scalar_at b)) as Hs by (intros; split; reflexivity).
  assert (forall a b, a <> b -> disjoint (ocells (scalar_at a)) (ocells (scalar_at b))) as Hd.
  { intros a b Hab c (i & _ & Ha) (j & _ & Hb). unfold element_address in *. simpl in *. lia. }
  repeat split; auto; try apply Hw; try (apply Hd; lia).
  - intros a (i & _ & ->). discriminate.
  - intros i _. exists 1%Z. split; reflexivity.
  - intros i _. exists 2%Z. split; reflexivity.
  - intros (p & Hp & [] & m' & Hr & H). injection Hp as <-. injection Hr as <-.
    destruct (H [] (Hi 1)) as (v & Hv & Hf). injection Hv as <-. discriminate.
  - intros (p & Hp & [] & m' & Hr & H & _). injection Hp as <-. injection Hr as <-.
    destruct (H [] (Hi 0)) as (v & Hv & Hf). injection Hv as <-. discriminate.
  - intros (p & Hp & [] & m' & Hr & H). injection Hp as <-. injection Hr as <-.
    destruct (H [] (Hi 0)) as (v & Hv & Hf). injection Hv as <-. discriminate.
  - intros (p & Hp & [] & m' & Hr & H). injection Hp as <-. injection Hr as <-.
    destruct (H [] (Hi 2)) as (v & Hv & Hf). injection Hv as <-. discriminate.
Qed.
Print Assumptions C78_rank_0_refuted.

(** Rank 2: a 2x2 object with a padded row-major mapping, added to itself scaled by ten, in place. *)
Example C78_case :
  let m : mem zops := mem_of [1; 2; 77; 3; 4; 77]%Z in
  let addr (i : list nat) := 3 * nth 0 i 0 + nth 1 i 0 in
  let z : obj zops := Obj 2 (fun _ => 2) addr 0 ADefault in
  let x : obj zops := Obj 2 (fun _ => 2) addr 0 (AScaled (10%Z : zops) ADefault) in
  let f (i : list nat) : Z := nth (addr i) [10; 20; 0; 30; 40]%Z 0%Z in
  let g (i : list nat) : Z := nth (addr i) [1; 2; 0; 3; 4]%Z 0%Z in
  call_succeeds (add_any x z z) m (fun m' =>
    obj_holds m' z (fun i => (f i + g i)%Z) /\ changes_only m m' (ocells z)).
Proof.
  intros.
  assert (forall c i, index_of (Obj 2 (fun _ => 2) addr 0 c : obj zops) i ->
            i = [0; 0] \/ i = [0; 1] \/ i = [1; 0] \/ i = [1; 1]) as Hi.
  { intros c [|a [|b [|d i]]] [Hl H]; try discriminate.
    pose proof (H 0 ltac:(simpl; lia)) as H0. pose proof (H 1 ltac:(simpl; lia)) as H1. simpl in H0, H1.
    destruct a as [|[|a]], b as [|[|b]]; try lia; auto. }
  apply (C78_add_partial zops m x z z f g).
  - split; reflexivity.
  - split; reflexivity.
  - right. reflexivity.
  - intros i H. destruct (Hi _ _ H) as [E|[E|[E|E]]]; rewrite E; eexists; split; reflexivity.
  - intros i H. destruct (Hi _ _ H) as [E|[E|[E|E]]]; rewrite E; eexists; split; reflexivity.
  - split; [reflexivity|]. intros i j Ha Hb.
    destruct (Hi _ _ Ha) as [E|[E|[E|E]]], (Hi _ _ Hb) as [E'|[E'|[E'|E']]]; rewrite E, E'; try reflexivity; discriminate.
  - intros a (i & H & E'). destruct (Hi _ _ H) as [E|[E|[E|E]]]; rewrite E', E; discriminate.
  - right. reflexivity.
  - right. reflexivity.
Qed.
(** The other three on rank-1 objects (a row and a column of the same six cells) meet their hypotheses. *)
Example C78_case_vectors :
  let m : mem zops := mem_of [1; 2; 77; 3; 4; 77]%Z in
  let x : obj zops := Obj 1 (fun _ => 2) (fun i => nth 0 i 0) 0 ADefault in
  let y : obj zops := Obj 1 (fun _ => 2) (fun i => 2 * nth 0 i 0) 2 ADefault in
  let f (i : list nat) : Z := nth (nth 0 i 0) [1; 2]%Z 0%Z in
  let g (i : list nat) : Z := nth (nth 0 i 0) [77; 4]%Z 0%Z in
  call_succeeds (copy_any x y) m (fun m' => obj_holds m' y f /\ changes_only m m' (ocells y)) /\
  call_succeeds (swap_any x y) m (fun m' => obj_holds m' x g /\ obj_holds m' y f /\
    changes_only m m' (fun a => ocells x a \/ ocells y a)) /\
  call_succeeds (scale_any (5%Z : zops) x) m (fun m' =>
    obj_holds m' x (fun i => (f i * 5)%Z) /\ changes_only m m' (ocells x)).
Proof.
  intros.
  assert (forall s b i, index_of (Obj 1 (fun _ => 2) s b ADefault : obj zops) i -> i = [0] \/ i = [1]) as Hi.
  { intros s b [|a [|c i]] [Hl H]; try discriminate.
    pose proof (H 0 ltac:(simpl; lia)) as H0. simpl in H0. destruct a as [|[|a]]; try lia; auto. }
  assert (obj_holds m x f) as Hx
    by (intros i H; destruct (Hi _ _ _ H) as [E|E]; rewrite E; eexists; split; reflexivity).
  assert (obj_holds m y g) as Hy
    by (intros i H; destruct (Hi _ _ _ H) as [E|E]; rewrite E; eexists; split; reflexivity).
  assert (owritable x) as Wx.
  { split; [reflexivity|]. intros i j Ha Hb.
    destruct (Hi _ _ _ Ha) as [E|E], (Hi _ _ _ Hb) as [E'|E']; rewrite E, E'; try reflexivity; discriminate. }
  assert (owritable y) as Wy.
  { split; [reflexivity|]. intros i j Ha Hb.
    destruct (Hi _ _ _ Ha) as [E|E], (Hi _ _ _ Hb) as [E'|E']; rewrite E, E'; try reflexivity; discriminate. }
  assert (disjoint (ocells x) (ocells y)) as Hd.
  { intros a (i & Ha & E1) (j & Hb & E2).
    destruct (Hi _ _ _ Ha) as [E|E], (Hi _ _ _ Hb) as [E'|E']; rewrite E in E1; rewrite E' in E2; subst a; discriminate. }
  assert (same_shape x y) as Hs by (split; reflexivity).
  split; [|split].
  - apply (C78_copy_partial zops m x y f); auto.
    + intros a (i & H & E'). destruct (Hi _ _ _ H) as [E|E]; rewrite E', E; discriminate.
    + left; exact Hd.
  - apply (C78_swap_partial zops m x y f g); auto.
  - apply (C78_scale_partial zops m (5%Z : zops) x f); auto.
Qed.

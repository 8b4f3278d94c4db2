(** Consequences of the exact effect of apply_givens_rotation: norm preservation and inversion. *)
From Coq Require Import List Arith Lia Bool Ring.
From Verif Require Import Mem Scalar View Spec Wp Loops Sums Alg Blas1 PfBlas1.
Set Implicit Arguments.
Local Open Scope sc_scope.

Section Pf.
Context {O : ops} (L : ring_laws O) (C : mul_commutes O).
Add Ring Oring : (comm_ring L C).

Definition sqnorm (n : nat) (f g : nat -> O) : O :=
  bigsum n (fun i => f i * conj (f i) + g i * conj (g i)).

Lemma rot_norm_c : conj_laws O -> forall (c s : O) n f g,
  conj c = c -> c * c + s * conj s = one ->
  sqnorm n (fun i => c * f i + s * g i) (fun i => c * g i - conj s * f i) = sqnorm n f g.
Proof.
  intros K c s n f g Hc H. unfold sqnorm, bigsum. apply sum_from_ext. intros k _.
  rewrite (conj_sub L K), !(conj_add K), !(conj_mul K), (conj_conj K), Hc.
  transitivity ((c * c + s * conj s) * (f k * conj (f k) + g k * conj (g k))); [ring|].
  rewrite H. ring.
Qed.

Lemma rot_norm_run_c0 : conj_laws O -> forall (m : mem O) x y f g c s, conj c = c -> c * c + s * conj s = one ->
  vext x = vext y -> vec_holds m x f -> vec_holds m y g -> vwritable x -> vwritable y ->
  disjoint (vcells x) (vcells y) ->
  succeeds (apply_givens_rotation_c x y c s) m (fun _ m' =>
    exists f' g', vec_holds m' x f' /\ vec_holds m' y g' /\ sqnorm (vext x) f' g' = sqnorm (vext x) f g).
Proof.
  intros K m x y f g c s Hc H He Hx Hy Hwx Hwy Hd.
  eapply wp_conseq; [eapply apply_givens_c_ok; eauto|]. intros [] m1 (H1 & H2 & H3).
  eexists _, _. split; [exact H1|]. split; [exact H2|]. apply rot_norm_c; auto.
Qed.
Lemma rot_norm_run0 : forall (m : mem O) x y f g c s, c * c + s * s = one ->
  vext x = vext y -> vec_holds m x f -> vec_holds m y g -> vwritable x -> vwritable y ->
  disjoint (vcells x) (vcells y) ->
  succeeds (apply_givens_rotation x y c s) m (fun _ m' =>
    exists f' g', vec_holds m' x f' /\ vec_holds m' y g' /\
      bigsum (vext x) (fun i => f' i * f' i + g' i * g' i) = bigsum (vext x) (fun i => f i * f i + g i * g i)).
Proof.
  intros m x y f g c s H He Hx Hy Hwx Hwy Hd.
  eapply wp_conseq; [eapply apply_givens_ok; eauto|]. intros [] m1 (H1 & H2 & H3).
  eexists _, _. split; [exact H1|]. split; [exact H2|]. unfold bigsum. apply sum_from_ext. intros k _.
  transitivity ((c * c + s * s) * (f k * f k + g k * g k)); [ring|]. rewrite H. ring.
Qed.

Lemma restore2 : forall (m m1 m2 : mem O) x y f g,
  vacc x = ADefault -> vacc y = ADefault ->
  vec_holds m x f -> vec_holds m y g -> vec_holds m2 x f -> vec_holds m2 y g ->
  changes_only m m1 (fun a => vcells x a \/ vcells y a) ->
  changes_only m1 m2 (fun a => vcells x a \/ vcells y a) -> same_memory m m2.
Proof.
  intros m m1 m2 x y f g Hdx Hdy Hx Hy Hx2 Hy2 H1 H2 a.
  assert (forall z h, vacc z = ADefault -> vec_holds m z h -> vec_holds m2 z h -> vcells z a -> m2 a = m a) as K.
  { intros z h Hz E1 E2 (i & Hi & ->). destruct (E1 i Hi) as (v & Hv & Hv').
    destruct (E2 i Hi) as (w & Hw & Hw'). rewrite Hz in *; simpl in *. congruence. }
  destruct (in_dec Nat.eq_dec a (map (vaddr x) (seq 0 (vext x)))) as [Hin|Hnx].
  { eapply K with (z := x); eauto. apply in_map_iff in Hin. destruct Hin as (i & <- & Hi).
    apply in_seq in Hi. exists i; split; auto; lia. }
  destruct (in_dec Nat.eq_dec a (map (vaddr y) (seq 0 (vext y)))) as [Hin|Hny].
  { eapply K with (z := y); eauto. apply in_map_iff in Hin. destruct Hin as (i & <- & Hi).
    apply in_seq in Hi. exists i; split; auto; lia. }
  assert (~ (vcells x a \/ vcells y a)) as N.
  { intros [(i & Hi & ->)|(i & Hi & ->)]; [apply Hnx | apply Hny]; apply in_map, in_seq; lia. }
  rewrite H2, H1; auto.
Qed.

Lemma rot_inverse : forall (m : mem O) x y f g c s,
  c * c + s * s = one ->
  vext x = vext y -> vec_holds m x f -> vec_holds m y g -> vwritable x -> vwritable y ->
  disjoint (vcells x) (vcells y) ->
  succeeds (bind (apply_givens_rotation x y c s) (fun _ => apply_givens_rotation x y c (zero - s))) m
    (fun _ m' => same_memory m m').
Proof.
  intros m x y f g c s H He Hx Hy Hwx Hwy Hd.
  apply wp_bind. eapply wp_conseq; [eapply apply_givens_ok; eauto|]. intros [] m1 (H1 & H2 & H3).
  eapply wp_conseq; [eapply apply_givens_ok; eauto|]. intros [] m2 (H4 & H5 & H6).
  eapply restore2 with (m1 := m1) (x := x) (y := y); eauto; try apply Hwx; try apply Hwy.
  - eapply vec_holds_ext; [|exact H4]. intros i _. cbv beta.
    transitivity ((c * c + s * s) * f i); [ring|]. rewrite H; ring.
  - eapply vec_holds_ext; [|exact H5]. intros i _. cbv beta.
    transitivity ((c * c + s * s) * g i); [ring|]. rewrite H; ring.
Qed.

Lemma rot_inverse_c : conj_laws O -> forall (m : mem O) x y f g c s,
  c * c + s * conj s = one ->
  vext x = vext y -> vec_holds m x f -> vec_holds m y g -> vwritable x -> vwritable y ->
  disjoint (vcells x) (vcells y) ->
  succeeds (bind (apply_givens_rotation_c x y c s) (fun _ => apply_givens_rotation_c x y c (zero - s))) m
    (fun _ m' => same_memory m m').
Proof.
  intros K m x y f g c s H He Hx Hy Hwx Hwy Hd.
  apply wp_bind. eapply wp_conseq; [eapply apply_givens_c_ok; eauto|]. intros [] m1 (H1 & H2 & H3).
  eapply wp_conseq; [eapply apply_givens_c_ok; eauto|]. intros [] m2 (H4 & H5 & H6).
  eapply restore2 with (m1 := m1) (x := x) (y := y); eauto; try apply Hwx; try apply Hwy.
  - eapply vec_holds_ext; [|exact H4]. intros i _. cbv beta.
    transitivity ((c * c + s * conj s) * f i); [ring|]. rewrite H; ring.
  - eapply vec_holds_ext; [|exact H5]. intros i _. cbv beta. rewrite (conj_sub L K), (conj_0 L K).
    transitivity ((c * c + s * conj s) * g i); [ring|]. rewrite H; ring.
Qed.
End Pf.

Lemma rot_norm_run_c : forall (O : ops) (m : mem O) x y f g c s,
  ring_laws O -> mul_commutes O -> conj_laws O -> conj c = c -> c * c + s * conj s = one ->
  vext x = vext y -> vec_holds m x f -> vec_holds m y g -> vwritable x -> vwritable y ->
  disjoint (vcells x) (vcells y) ->
  succeeds (apply_givens_rotation_c x y c s) m (fun _ m' =>
    exists f' g', vec_holds m' x f' /\ vec_holds m' y g' /\ sqnorm (vext x) f' g' = sqnorm (vext x) f g).
Proof. intros; apply rot_norm_run_c0; auto. Qed.
Lemma rot_norm_run : forall (O : ops) (m : mem O) x y f g c s,
  ring_laws O -> mul_commutes O -> c * c + s * s = one ->
  vext x = vext y -> vec_holds m x f -> vec_holds m y g -> vwritable x -> vwritable y ->
  disjoint (vcells x) (vcells y) ->
  succeeds (apply_givens_rotation x y c s) m (fun _ m' =>
    exists f' g', vec_holds m' x f' /\ vec_holds m' y g' /\
      bigsum (vext x) (fun i => f' i * f' i + g' i * g' i) = bigsum (vext x) (fun i => f i * f i + g i * g i)).
Proof. intros; apply rot_norm_run0; auto. Qed.
Lemma dot_init_plus : forall (O : ops) (m : mem O) x y f g init,
  add_laws O -> vext x = vext y -> vec_holds m x f -> vec_holds m y g ->
  succeeds (dot x y init) m (fun r m' => r = init + bigsum (vext x) (fun k => f k * g k) /\ m' = m).
Proof.
  intros O m x y f g init LA He Hx Hy. eapply wp_conseq; [eapply dot_ok; eauto|].
  intros r m' [-> ->]; split; auto. unfold bigsum. apply (sum_from_init LA).
Qed.

Section Swap.
Context {O : ops}.
Lemma mlist_dec : forall (A : mat O) a, mcells A a \/ ~ mcells A a.
Proof.
  intros A a.
  destruct (in_dec Nat.eq_dec a (map (fun p => maddr A (fst p) (snd p))
     (list_prod (seq 0 (ext0 A)) (seq 0 (ext1 A))))) as [H|H].
  - left. apply in_map_iff in H. destruct H as ([i j] & <- & Hin). apply in_prod_iff in Hin.
    destruct Hin as [Hi Hj]. apply in_seq in Hi, Hj. exists i, j. repeat split; auto; lia.
  - right. intros (i & j & Hi & Hj & _ & ->). apply H.
    apply (in_map (fun p => maddr A (fst p) (snd p)) _ (i, j)). apply in_prod; apply in_seq; lia.
Qed.
Lemma swap_2_twice : forall (m : mem O) x y f g,
  ext0 x = ext0 y -> ext1 x = ext1 y -> mat_holds m x f -> mat_holds m y g -> mwritable x -> mwritable y ->
  disjoint (mcells x) (mcells y) ->
  succeeds (bind (swap_2 x y) (fun _ => swap_2 x y)) m (fun _ m' => same_memory m m').
Proof.
  intros m x y f g He0 He1 Hx Hy Hwx Hwy Hd.
  apply wp_bind. eapply wp_conseq; [eapply swap_2_ok; eauto|]. intros [] m1 (H1 & H2 & H3).
  eapply wp_conseq; [eapply swap_2_ok; eauto|]. intros [] m2 (H4 & H5 & H6).
  intros a. destruct Hwx as [Hdx _], Hwy as [Hdy _].
  assert (forall z h, macc z = ADefault -> mat_holds m z h -> mat_holds m2 z h -> mcells z a -> m2 a = m a) as K.
  { intros z h Hz E1 E2 (i & j & Hi & Hj & HP & ->). destruct (E1 i j Hi Hj HP) as (v & Hv & Hv').
    destruct (E2 i j Hi Hj HP) as (w & Hw & Hw'). rewrite Hz in *; simpl in *. congruence. }
  destruct (mlist_dec x a) as [Hin|Hnx]; [eapply K with (z := x); eauto|].
  destruct (mlist_dec y a) as [Hin|Hny]; [eapply K with (z := y); eauto|].
  rewrite H6, H3; tauto.
Qed.
End Swap.

(** Integer types of every width: the algorithms (C83). *)
From Coq Require Import ZArith Lia Bool List.
From Verif Require Import Mem Scalar View Spec SpecI SpecI2 SpecT Proxy Typed TypedProd PfTypedProd Ints PfInts.
Import ListNotations.
Local Open Scope Z_scope.

Lemma cast_zero : forall s tz, 1 <= iwidth s -> icast s (int_value tz 0) = int_value s 0.
Proof.
  intros s tz H. unfold int_value; cbn [icast]. destruct (ikind_eqb tz s) eqn:E; [apply kind_eq in E; subst; reflexivity|].
  cbn [option_map]. rewrite wrap_id; auto. apply zero_rep; auto.
Qed.
Lemma succ_mono : forall (T A : Type) (p : prog T A) (m : mem T) (P Q : A -> mem T -> Prop),
  succeeds p m P -> (forall r m', P r m' -> Q r m') -> succeeds p m Q.
Proof. intros T A p m P Q (r & m' & E & H) K. exists r, m'. auto. Qed.

Lemma int_scale : forall t z o (m : mem (typed_ops ints z o)) alpha x f, 1 <= iwidth t ->
  representable t alpha -> (forall i, (i < vext x)%nat -> representable t (f i)) ->
  vec_holds m x (fun i => int_value t (f i)) -> vwritable x ->
  succeeds (typed_scale ints z o t (int_value t alpha) x) m (fun _ m' =>
    (exists v, vec_holds m' x v /\ forall i, (i < vext x)%nat -> is_result t t (f i * alpha) (v i)) /\
    changes_only m m' (vcells x)).
Proof.
  intros t z o m alpha x f W Ha Hf Hx Hw.
  eapply succ_mono; [apply (@typed_scale_ok ints z o t m (int_value t alpha) x _ Hx Hw)|].
  intros _ m' [V C]. split; [|exact C]. eexists; split; [exact V|]. intros i Hi. apply mul_result; auto.
Qed.
Lemma int_add : forall t z o (m : mem (typed_ops ints z o)) x y v f g, 1 <= iwidth t ->
  vext x = vext v -> vext y = vext v ->
  (forall i, (i < vext v)%nat -> representable t (f i) /\ representable t (g i)) ->
  vec_holds m x (fun i => int_value t (f i)) -> vec_holds m y (fun i => int_value t (g i)) ->
  vwritable v -> allocated m (vcells v) -> disjoint_or_aligned_v x v -> disjoint_or_aligned_v y v ->
  succeeds (typed_add ints z o t x y v) m (fun _ m' =>
    (exists w, vec_holds m' v w /\ forall i, (i < vext v)%nat -> is_result t t (f i + g i) (w i)) /\
    changes_only m m' (vcells v)).
Proof.
  intros t z o m x y v f g W E1 E2 Hf Hx Hy Hw Hal D1 D2.
  eapply succ_mono; [apply (@typed_add_ok ints z o t m x y v _ _ E1 E2 Hx Hy Hw Hal D1 D2)|].
  intros _ m' [V C]. split; [|exact C]. eexists; split; [exact V|]. intros i Hi. apply add_result; auto; apply Hf; auto.
Qed.
Lemma int_dot : forall t z o (m : mem (typed_ops ints z o)) x y f g init, 1 <= iwidth t ->
  vext x = vext y -> (forall i, (i < vext x)%nat -> representable t (f i) /\ representable t (g i)) -> representable t init ->
  vec_holds m x (fun i => int_value t (f i)) -> vec_holds m y (fun i => int_value t (g i)) ->
  succeeds (typed_dot ints z o t x y (int_value t init)) m (fun r m' => is_sum t t init (vext x) f g r /\ m' = m).
Proof.
  intros t z o m x y f g init W E Hf Hi Hx Hy.
  eapply succ_mono; [apply (@typed_dot_ok ints z o t m x y _ _ (int_value t init) E Hx Hy)|].
  intros r m' [-> ->]. split; [|reflexivity]. apply sums_exact; auto.
Qed.
Lemma int_dot_noinit : forall t tz o (m : mem (typed_ops ints (int_value tz 0) o)) x y f g, 1 <= iwidth t ->
  vext x = vext y -> (forall i, (i < vext x)%nat -> representable t (f i) /\ representable t (g i)) ->
  vec_holds m x (fun i => int_value t (f i)) -> vec_holds m y (fun i => int_value t (g i)) ->
  succeeds (typed_dot_noinit ints (int_value tz 0) o t t x y) m (fun r m' =>
    is_sum (arith_type t) t 0 (vext x) f g r /\ m' = m).
Proof.
  intros t tz o m x y f g W E Hf Hx Hy.
  eapply succ_mono; [apply (@typed_dot_noinit_ok ints (int_value tz 0) o t t m x y _ _ E Hx Hy)|].
  intros r m' [-> ->]. split; [|reflexivity]. change (mul_type ints t t) with (common t t). change (cast ints) with icast.
  assert (A := arith_wide t). rewrite common_arith, cast_zero by lia. apply sums_exact; auto. apply zero_rep. lia.
Qed.
Lemma int_gemv : forall t tz o (m : mem (typed_ops ints (int_value tz 0) o)) A x y a f, 1 <= iwidth t ->
  vext x = ext1 A -> vext y = ext0 A ->
  (forall i j, (i < ext0 A)%nat -> (j < ext1 A)%nat -> representable t (a i j) /\ representable t (f j)) ->
  mat_holds m A (fun i j => int_value t (a i j)) -> vec_holds m x (fun j => int_value t (f j)) ->
  vwritable y -> allocated m (vcells y) -> disjoint (mcells A) (vcells y) -> disjoint (vcells x) (vcells y) ->
  succeeds (typed_gemv ints (int_value tz 0) o t A x y) m (fun _ m' =>
    (exists v, vec_holds m' y v /\ forall i, (i < ext0 A)%nat -> is_sum t t 0 (ext1 A) (a i) f (v i)) /\
    changes_only m m' (vcells y)).
Proof.
  intros t tz o m A x y a f W E1 E2 Hf HA Hx Hw Hal D1 D2.
  eapply succ_mono; [apply (@typed_gemv_ok ints (int_value tz 0) o t m A x y _ _ E1 E2 HA Hx Hw Hal D1 D2)|].
  intros _ m' [V C]. split; [|exact C]. eexists; split; [exact V|]. intros i Hi. cbv beta.
  change (cast ints) with icast. rewrite cast_zero by auto. apply sums_exact; auto. apply zero_rep; auto.
Qed.
Lemma int_gemv_upd : forall t z o (m : mem (typed_ops ints z o)) A x y v a f g, 1 <= iwidth t ->
  vext x = ext1 A -> vext y = ext0 A -> vext v = ext0 A ->
  (forall i j, (i < ext0 A)%nat -> (j < ext1 A)%nat -> representable t (a i j) /\ representable t (f j)) ->
  (forall i, (i < ext0 A)%nat -> representable t (g i)) ->
  mat_holds m A (fun i j => int_value t (a i j)) -> vec_holds m x (fun j => int_value t (f j)) ->
  vec_holds m y (fun i => int_value t (g i)) ->
  vwritable v -> allocated m (vcells v) -> disjoint (mcells A) (vcells v) -> disjoint (vcells x) (vcells v) ->
  disjoint_or_aligned_v y v ->
  succeeds (typed_gemv_upd ints z o t A x y v) m (fun _ m' =>
    (exists w, vec_holds m' v w /\ forall i, (i < ext0 A)%nat -> is_sum t t (g i) (ext1 A) (a i) f (w i)) /\
    changes_only m m' (vcells v)).
Proof.
  intros t z o m A x y v a f g W E1 E2 E3 Hf Hg HA Hx Hy Hw Hal D1 D2 D3.
  eapply succ_mono; [apply (@typed_gemv_upd_ok ints z o t m A x y v _ _ _ E1 E2 E3 HA Hx Hy Hw Hal D1 D2 D3)|].
  intros _ m' [V C]. split; [|exact C]. eexists; split; [exact V|]. intros i Hi. cbv beta.
  change (cast ints) with icast. unfold int_value at 1. rewrite cast_same. apply sums_exact; auto.
Qed.
Lemma int_gemm : forall t tz o (m : mem (typed_ops ints (int_value tz 0) o)) A B C a b, 1 <= iwidth t ->
  ext0 C = ext0 A -> ext1 A = ext0 B -> ext1 C = ext1 B ->
  (forall i k j, (i < ext0 A)%nat -> (k < ext1 A)%nat -> (j < ext1 B)%nat -> representable t (a i k) /\ representable t (b k j)) ->
  mat_holds m A (fun i j => int_value t (a i j)) -> mat_holds m B (fun i j => int_value t (b i j)) ->
  mwritable C -> allocated m (mcells C) -> disjoint (mcells A) (mcells C) -> disjoint (mcells B) (mcells C) ->
  succeeds (typed_gemm ints (int_value tz 0) o t A B C) m (fun _ m' =>
    (exists v, mat_holds m' C v /\ forall i j, (i < ext0 A)%nat -> (j < ext1 B)%nat ->
      is_sum t t 0 (ext1 A) (a i) (fun k => b k j) (v i j)) /\
    changes_only m m' (mcells C)).
Proof.
  intros t tz o m A B C a b W E1 E2 E3 Hf HA HB Hw Hal D1 D2.
  eapply succ_mono; [apply (@typed_gemm_ok ints (int_value tz 0) o t m A B C _ _ E1 E2 E3 HA HB Hw Hal D1 D2)|].
  intros _ m' [V K]. split; [|exact K]. eexists; split; [exact V|]. intros i j Hi Hj. cbv beta.
  change (cast ints) with icast. rewrite cast_zero by auto. apply sums_exact; auto. apply zero_rep; auto.
Qed.
Lemma int_gemm_upd : forall t z o (m : mem (typed_ops ints z o)) A B E C a b e, 1 <= iwidth t ->
  ext0 C = ext0 A -> ext1 A = ext0 B -> ext1 C = ext1 B -> ext0 E = ext0 C -> ext1 E = ext1 C ->
  (forall i k j, (i < ext0 A)%nat -> (k < ext1 A)%nat -> (j < ext1 B)%nat -> representable t (a i k) /\ representable t (b k j)) ->
  (forall i j, (i < ext0 A)%nat -> (j < ext1 B)%nat -> representable t (e i j)) ->
  mat_holds m A (fun i j => int_value t (a i j)) -> mat_holds m B (fun i j => int_value t (b i j)) ->
  mat_holds m E (fun i j => int_value t (e i j)) ->
  mwritable C -> allocated m (mcells C) -> disjoint (mcells A) (mcells C) -> disjoint (mcells B) (mcells C) ->
  disjoint_or_aligned_m E C ->
  succeeds (typed_gemm_upd ints z o t A B E C) m (fun _ m' =>
    (exists v, mat_holds m' C v /\ forall i j, (i < ext0 A)%nat -> (j < ext1 B)%nat ->
      is_sum t t (e i j) (ext1 A) (a i) (fun k => b k j) (v i j)) /\
    changes_only m m' (mcells C)).
Proof.
  intros t z o m A B E C a b e W E1 E2 E3 E4 E5 Hf Hg HA HB HE Hw Hal D1 D2 D3.
  eapply succ_mono; [apply (@typed_gemm_upd_ok ints z o t m A B E C _ _ _ E1 E2 E3 E4 E5 HA HB HE Hw Hal D1 D2 D3)|].
  intros _ m' [V K]. split; [|exact K]. eexists; split; [exact V|]. intros i j Hi Hj. cbv beta.
  change (cast ints) with icast. unfold int_value at 1. rewrite cast_same. apply sums_exact; auto.
Qed.
Lemma int_ger : forall t z o (m : mem (typed_ops ints z o)) x y A a f g, 1 <= iwidth t ->
  vext x = ext0 A -> vext y = ext1 A ->
  (forall i j, (i < ext0 A)%nat -> (j < ext1 A)%nat -> representable t (a i j) /\ representable t (f i) /\ representable t (g j)) ->
  mat_holds m A (fun i j => int_value t (a i j)) -> vec_holds m x (fun i => int_value t (f i)) ->
  vec_holds m y (fun j => int_value t (g j)) ->
  mwritable A -> disjoint (vcells x) (mcells A) -> disjoint (vcells y) (mcells A) ->
  succeeds (typed_ger ints z o t x y A) m (fun _ m' =>
    (exists v, mat_holds m' A v /\ forall i j, (i < ext0 A)%nat -> (j < ext1 A)%nat ->
      is_sum t t (a i j) 1 (fun _ => f i) (fun _ => g j) (v i j)) /\
    changes_only m m' (mcells A)).
Proof.
  intros t z o m x y A a f g W E1 E2 Hf HA Hx Hy Hw D1 D2.
  eapply succ_mono; [apply (@typed_ger_ok ints z o t m x y A _ _ _ E1 E2 HA Hx Hy Hw D1 D2)|].
  intros _ m' [V K]. split; [|exact K]. eexists; split; [exact V|]. intros i j Hi Hj.
  destruct (Hf i j Hi Hj) as (Ha & Hx' & Hy').
  exact (sums_exact t t (a i j) 1 (fun _ => f i) (fun _ => g j) W (or_introl eq_refl) Ha (fun _ _ => Logic.conj Hx' Hy')).
Qed.
Lemma int_defined : forall t, never_overflows t -> forall a n x y, representable t a ->
  (forall k, (k < n)%nat -> representable t (x k) /\ representable t (y k)) ->
  defined_sum t t a n x y /\ forall v, is_sum t t a n x y v ->
  exists r, reduced t (a + zsum n (fun k => x k * y k)) r /\ v = int_value t r.
Proof.
  intros t N a n x y Ha H. assert (D := never_sum t a n x y N Ha H). split; [exact D|]. intros v [V _]. auto.
Qed.

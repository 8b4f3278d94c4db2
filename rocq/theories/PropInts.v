(** C83: elementwise operations, dot, products and the rank-1 update on integers of every width and signedness. *)
From Coq Require Import List Arith ZArith Lia Bool.
From Verif Require Import Mem Scalar View Spec SpecI SpecI2 SpecT Proxy Typed TypedProd PfTypedProd Ints PfInts PfInts2 Inst.
Import ListNotations.
Local Open Scope Z_scope.

(** scale and add: each element is the exact product or sum, reduced to the element type; undefined exactly if the operation
    overflows in the type it takes place in. *)
Theorem C83_scale : forall t z o (m : mem (typed_ops ints z o)) alpha x f, 1 <= iwidth t ->
  representable t alpha -> (forall i, (i < vext x)%nat -> representable t (f i)) ->
  vec_holds m x (fun i => int_value t (f i)) -> vwritable x ->
  succeeds (typed_scale ints z o t (int_value t alpha) x) m (fun _ m' =>
    (exists v, vec_holds m' x v /\ forall i, (i < vext x)%nat -> is_result t t (f i * alpha) (v i)) /\
    changes_only m m' (vcells x)).
Proof. exact int_scale. Qed.
Print Assumptions C83_scale.

Theorem C83_add : forall t z o (m : mem (typed_ops ints z o)) x y v f g, 1 <= iwidth t ->
  vext x = vext v -> vext y = vext v ->
  (forall i, (i < vext v)%nat -> representable t (f i) /\ representable t (g i)) ->
  vec_holds m x (fun i => int_value t (f i)) -> vec_holds m y (fun i => int_value t (g i)) ->
  vwritable v -> allocated m (vcells v) -> disjoint_or_aligned_v x v -> disjoint_or_aligned_v y v ->
  succeeds (typed_add ints z o t x y v) m (fun _ m' =>
    (exists w, vec_holds m' v w /\ forall i, (i < vext v)%nat -> is_result t t (f i + g i) (w i)) /\
    changes_only m m' (vcells v)).
Proof. exact int_add. Qed.
Print Assumptions C83_add.

(** dot: in the type of init, here the element type; without init in the type of a product. *)
Theorem C83_dot : forall t z o (m : mem (typed_ops ints z o)) x y f g init, 1 <= iwidth t ->
  vext x = vext y -> (forall i, (i < vext x)%nat -> representable t (f i) /\ representable t (g i)) -> representable t init ->
  vec_holds m x (fun i => int_value t (f i)) -> vec_holds m y (fun i => int_value t (g i)) ->
  succeeds (typed_dot ints z o t x y (int_value t init)) m (fun r m' => is_sum t t init (vext x) f g r /\ m' = m).
Proof. exact int_dot. Qed.
Print Assumptions C83_dot.

Theorem C83_dot_without_init : forall t tz o (m : mem (typed_ops ints (int_value tz 0) o)) x y f g, 1 <= iwidth t ->
  vext x = vext y -> (forall i, (i < vext x)%nat -> representable t (f i) /\ representable t (g i)) ->
  vec_holds m x (fun i => int_value t (f i)) -> vec_holds m y (fun i => int_value t (g i)) ->
  succeeds (typed_dot_noinit ints (int_value tz 0) o t t x y) m (fun r m' =>
    is_sum (arith_type t) t 0 (vext x) f g r /\ m' = m).
Proof. exact int_dot_noinit. Qed.
Print Assumptions C83_dot_without_init.

(** Products and the rank-1 update. *)
Theorem C83_gemv : forall t tz o (m : mem (typed_ops ints (int_value tz 0) o)) A x y a f, 1 <= iwidth t ->
  vext x = ext1 A -> vext y = ext0 A ->
  (forall i j, (i < ext0 A)%nat -> (j < ext1 A)%nat -> representable t (a i j) /\ representable t (f j)) ->
  mat_holds m A (fun i j => int_value t (a i j)) -> vec_holds m x (fun j => int_value t (f j)) ->
  vwritable y -> allocated m (vcells y) -> disjoint (mcells A) (vcells y) -> disjoint (vcells x) (vcells y) ->
  succeeds (typed_gemv ints (int_value tz 0) o t A x y) m (fun _ m' =>
    (exists v, vec_holds m' y v /\ forall i, (i < ext0 A)%nat -> is_sum t t 0 (ext1 A) (a i) f (v i)) /\
    changes_only m m' (vcells y)).
Proof. exact int_gemv. Qed.
Print Assumptions C83_gemv.

Theorem C83_gemv_updating : forall t z o (m : mem (typed_ops ints z o)) A x y v a f g, 1 <= iwidth t ->
  vext x = ext1 A -> vext y = ext0 A -> vext v = ext0 A ->
  (forall i j, (i < ext0 A)%nat -> (j < ext1 A)%nat -> representable t (a i j) /\ representable t (f j)) ->
  (forall i, (i < ext0 A)%nat -> representable t (g i)) ->
  mat_holds m A (fun i j => int_value t (a i j)) -> vec_holds m x (fun j => int_value t (f j)) ->
  vec_holds m y (fun i => int_value t (g i)) ->
  vwritable v -> allocated m (vcells v) -> disjoint (mcells A) (vcells v) -> disjoint (vcells x) (vcells v) ->
  disjoint_or_aligned_v y v ->
  succeeds (typed_gemv_upd ints z o t A x y v) m (fun _ m' =>
    (exists w, vec_holds m' v w /\ forall i, (i < ext0 A)%nat -> is_sum t t (g i) (ext1 A) (a i) f (w i)) /\
    changes_only m m' (vcells v)).
Proof. exact int_gemv_upd. Qed.
Print Assumptions C83_gemv_updating.

Theorem C83_gemm : forall t tz o (m : mem (typed_ops ints (int_value tz 0) o)) A B C a b, 1 <= iwidth t ->
  ext0 C = ext0 A -> ext1 A = ext0 B -> ext1 C = ext1 B ->
  (forall i k j, (i < ext0 A)%nat -> (k < ext1 A)%nat -> (j < ext1 B)%nat -> representable t (a i k) /\ representable t (b k j)) ->
  mat_holds m A (fun i j => int_value t (a i j)) -> mat_holds m B (fun i j => int_value t (b i j)) ->
  mwritable C -> allocated m (mcells C) -> disjoint (mcells A) (mcells C) -> disjoint (mcells B) (mcells C) ->
  succeeds (typed_gemm ints (int_value tz 0) o t A B C) m (fun _ m' =>
    (exists v, mat_holds m' C v /\ forall i j, (i < ext0 A)%nat -> (j < ext1 B)%nat ->
      is_sum t t 0 (ext1 A) (a i) (fun k => b k j) (v i j)) /\
    changes_only m m' (mcells C)).
Proof. exact int_gemm. Qed.
Print Assumptions C83_gemm.

Theorem C83_gemm_updating : forall t z o (m : mem (typed_ops ints z o)) A B E C a b e, 1 <= iwidth t ->
  ext0 C = ext0 A -> ext1 A = ext0 B -> ext1 C = ext1 B -> ext0 E = ext0 C -> ext1 E = ext1 C ->
  (forall i k j, (i < ext0 A)%nat -> (k < ext1 A)%nat -> (j < ext1 B)%nat -> representable t (a i k) /\ representable t (b k j)) ->
  (forall i j, (i < ext0 A)%nat -> (j < ext1 B)%nat -> representable t (e i j)) ->
  mat_holds m A (fun i j => int_value t (a i j)) -> mat_holds m B (fun i j => int_value t (b i j)) ->
  mat_holds m E (fun i j => int_value t (e i j)) ->
  mwritable C -> allocated m (mcells C) -> disjoint (mcells A) (mcells C) -> disjoint (mcells B) (mcells C) ->
  disjoint_or_aligned_m E C ->
  succeeds (typed_gemm_upd ints z o t A B E C) m (fun _ m' =>
    (exists v, mat_holds m' C v /\ forall i j, (i < ext0 A)%nat -> (j < ext1 B)%nat ->
      is_sum t t (e i j) (ext1 A) (a i) (fun k => b k j) (v i j)) /\
    changes_only m m' (mcells C)).
Proof. exact int_gemm_upd. Qed.
Print Assumptions C83_gemm_updating.

Theorem C83_ger : forall t z o (m : mem (typed_ops ints z o)) x y A a f g, 1 <= iwidth t ->
  vext x = ext0 A -> vext y = ext1 A ->
  (forall i j, (i < ext0 A)%nat -> (j < ext1 A)%nat -> representable t (a i j) /\ representable t (f i) /\ representable t (g j)) ->
  mat_holds m A (fun i j => int_value t (a i j)) -> vec_holds m x (fun i => int_value t (f i)) ->
  vec_holds m y (fun j => int_value t (g j)) ->
  mwritable A -> disjoint (vcells x) (mcells A) -> disjoint (vcells y) (mcells A) ->
  succeeds (typed_ger ints z o t x y A) m (fun _ m' =>
    (exists v, mat_holds m' A v /\ forall i j, (i < ext0 A)%nat -> (j < ext1 A)%nat ->
      is_sum t t (a i j) 1 (fun _ => f i) (fun _ => g j) (v i j)) /\
    changes_only m m' (mcells A)).
Proof. exact int_ger. Qed.
Print Assumptions C83_ger.

(** No sum of products overflows in types that wrap or are narrower than int.  Partial: unsigned types of 16 to 31 bits excepted,
    for which it is false (C83_defined_refuted). *)
Theorem C83_defined_partial : forall t, never_overflows t -> forall a n x y, representable t a ->
  (forall k, (k < n)%nat -> representable t (x k) /\ representable t (y k)) ->
  defined_sum t t a n x y /\ forall v, is_sum t t a n x y v ->
  exists r, reduced t (a + zsum n (fun k => x k * y k)) r /\ v = int_value t r.
Proof. exact int_defined. Qed.
Print Assumptions C83_defined_partial.

Definition u16 : ikind := IK false 16.
Definition s8 : ikind := IK true 8.
Definition s16 : ikind := IK true 16.
Definition u32 : ikind := IK false 32.
Definition IO (t : ikind) : ops := typed_ops ints (int_value t 0) (int_value t 1).
Definition imem (t : ikind) (l : list Z) : mem (IO t) := mem_of (map (int_value t) l).

(** unsigned short: dot of (65535) and (65535), and their outer product, are undefined. *)
Theorem C83_defined_refuted :
  exists (m : mem (IO u16)) x y A f, vext x = vext y /\ ext0 A = vext x /\ ext1 A = vext y /\
    (forall i, (i < vext x)%nat -> representable u16 (f i)) /\
    vec_holds m x (fun i => int_value u16 (f i)) /\ vec_holds m y (fun i => int_value u16 (f i)) /\
    mat_holds m A (fun _ _ => int_value u16 0) /\ mwritable A /\ disjoint (vcells x) (mcells A) /\ disjoint (vcells y) (mcells A) /\
    succeeds (typed_dot ints (int_value u16 0) (int_value u16 1) u16 x y (int_value u16 0)) m (fun r _ => r = undefined u16) /\
    succeeds (typed_ger ints (int_value u16 0) (int_value u16 1) u16 x y A) m (fun _ m' =>
      mat_holds m' A (fun _ _ => undefined u16)).
Proof.
  exists (imem u16 [65535; 65535; 0]), (vec_at 0 1), (vec_at 1 1), (row_major 2 1 1), (fun _ => 65535).
  do 3 (split; [reflexivity|]). split; [intros i Hi; unfold representable; simpl; lia|].
  do 6 (split; [concrete|]). split.
  - do 2 eexists. split; [reflexivity|]. vm_compute. reflexivity.
  - do 2 eexists. split; [reflexivity|]. concrete.
Qed.
Print Assumptions C83_defined_refuted.

(** The types obey the laws used in C81. *)
Example C83_laws : type_laws ints.
Proof.
  split.
  - intros t [s v]; simpl. destruct (ikind_eqb s t) eqn:E; [apply kind_eq in E; auto|reflexivity].
  - intros [s v]; simpl. rewrite kind_refl. reflexivity.
  - intros p [s v] [t w]. reflexivity.
Qed.

(** signed char: (100, 100) . (100, 100) = 20000 is 32 modulo 256 with a signed char init and 20000 without init;
    signed short (-32768)^2 = 2^30 is 0 modulo 2^16; unsigned int 4294967295 * 2 = 4294967294 modulo 2^32. *)
Example C83_case :
  succeeds (typed_dot ints (int_value s8 0) (int_value s8 1) s8 (vec_at 0 2) (vec_at 2 2) (int_value s8 0)) (imem s8 [100; 100; 100; 100])
    (fun r _ => r = int_value s8 32) /\
  succeeds (typed_dot_noinit ints (int_value s8 0) (int_value s8 1) s8 s8 (vec_at 0 2) (vec_at 2 2)) (imem s8 [100; 100; 100; 100])
    (fun r _ => r = int_value (IK true 32) 20000) /\
  succeeds (typed_dot ints (int_value s16 0) (int_value s16 1) s16 (vec_at 0 1) (vec_at 1 1) (int_value s16 0)) (imem s16 [-32768; -32768])
    (fun r _ => r = int_value s16 0) /\
  succeeds (typed_gemv ints (int_value u32 0) (int_value u32 1) u32 (row_major 0 1 1) (vec_at 1 1) (vec_at 2 1)) (imem u32 [4294967295; 2; 7])
    (fun _ m' => vec_holds m' (vec_at 2 1) (fun _ => int_value u32 4294967294)) /\
  never_overflows s8 /\ never_overflows s16 /\ never_overflows u32 /\ ~ never_overflows u16.
Proof.
  do 3 (split; [do 2 eexists; split; [reflexivity|]; vm_compute; reflexivity|]).
  split; [do 2 eexists; split; [reflexivity|]; concrete|].
  unfold never_overflows; simpl. repeat split; try lia.
Qed.
